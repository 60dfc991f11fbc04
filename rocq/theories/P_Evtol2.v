(** * Weight build-ups: proofs for blades, fuselage, wiring, the statement and the convergence loop *)
From Coq Require Import Reals List Bool Arith Lra Lia Psatz.
From Verif Require Import PyBase M_Opt P_Opt M_Drag M_Elec S_Elec M_Evtol S_Evtol P_Friction P_Engine P_Evtol.
Import ListNotations.
Local Open Scope R_scope.
Local Open Scope list_scope.

(** ** convergence *)
Lemma iterate_in : forall k f x, iterate (S k) f x = iterate k f (f x).
Proof. induction k as [|k IH]; intros f x; [reflexivity|]. change (f (iterate (S k) f x) = f (iterate k f (f x))). rewrite IH. reflexivity. Qed.
Lemma loop_char : forall left W m,
  (exists k, (k <= left)%nat /\ converge_loop left W m (m - W m) = (true, iterate k W m) /\ Rabs (iterate k W m - W (iterate k W m)) <= 1 /\
     forall j, (j < k)%nat -> 1 < Rabs (iterate j W m - W (iterate j W m)))
  \/ (converge_loop left W m (m - W m) = (false, iterate (S left) W m) /\ forall j, (j <= left)%nat -> 1 < Rabs (iterate j W m - W (iterate j W m))).
Proof.
  induction left as [|l IH]; intros W m; cbn [converge_loop]; destruct (Rltb 1 (Rabs (m - W m))) eqn:E.
  - right. split; [simpl; f_equal; lra|]. intros j J. replace j with 0%nat by lia. apply Rltb_true. exact E.
  - left. exists 0%nat. split; [lia|]. split; [reflexivity|]. split; [apply Rltb_false; exact E | intros; lia].
  - replace (m - (m - W m)) with (W m) by lra. apply Rltb_true in E. destruct (IH W (W m)) as [(k & K & A & B & C)|(A & B)].
    + left. exists (S k). rewrite iterate_in. split; [lia|]. split; [exact A|]. split; [exact B|]. intros [|j] J; [exact E|]. rewrite iterate_in. apply C. lia.
    + right. split; [rewrite iterate_in; exact A|]. intros [|j] J; [exact E|]. rewrite iterate_in. apply B. lia.
  - left. exists 0%nat. split; [lia|]. split; [reflexivity|]. split; [apply Rltb_false; exact E | intros; lia].
Qed.
Lemma contraction_gap : forall W q m, 0 <= q -> (forall a b, Rabs (W a - W b) <= q * Rabs (a - b)) ->
  forall k, Rabs (iterate k W m - W (iterate k W m)) <= q ^ k * Rabs (m - W m).
Proof.
  intros W q m Q H k. induction k as [|k IH]; [simpl; lra|].
  change (Rabs (W (iterate k W m) - W (W (iterate k W m))) <= q * q ^ k * Rabs (m - W m)). eapply Rle_trans; [apply H|]. nra.
Qed.

(** ** blades *)
Lemma sum_range_last : forall n f, sum_range 0 (S n) f = sum_range 0 n f + f n.
Proof.
  intros n f. unfold sum_range. rewrite !Nat.sub_0_r, seq_S, map_app, fold_right_app. simpl. 
  assert (G : forall l a, fold_right Rplus a l = fold_right Rplus 0 l + a) by (induction l; intros; simpl; [lra|]; rewrite IHl; lra).
  rewrite G. lra.
Qed.
Lemma squares : forall n, sum_range 0 n (fun j => INR j * INR j) = INR n * (INR n - 1) * (2 * INR n - 1) / 6.
Proof. induction n as [|n IH]; [unfold sum_range; simpl; lra|]. rewrite sum_range_last, IH, S_INR. field. Qed.
Lemma stations_at : forall r n j, (j <= n)%nat -> at_ (blade_stations r n) j = r * INR j / INR n.
Proof.
  intros r n j J. unfold at_, blade_stations. rewrite (nth_indep _ 0 (r * INR 0 / INR n)) by (rewrite map_length, seq_length; lia).
  rewrite (map_nth (fun i => r * INR i / INR n)). rewrite seq_nth by lia. reflexivity.
Qed.
Lemma stations_length : forall r n, length (blade_stations r n) = S n.
Proof. intros. unfold blade_stations. rewrite map_length. apply seq_length. Qed.
Lemma blade_root_shear : forall sf thrust r blades n, r <> 0 -> (0 < n)%nat -> (0 < blades)%nat ->
  nth 0 (summed (blade_stations r n) (map (blade_load sf thrust r blades) (blade_stations r n))) 0
  = sf * thrust / INR blades * ((INR n - 1) * (2 * INR n - 1) / (2 * (INR n * INR n))).
Proof.
  intros sf thrust r blades n R0 N B. rewrite summed_nth by apply map_length. rewrite stations_length. simpl pred.
  assert (0 < INR n) by (apply lt_0_INR; exact N). assert (0 < INR blades) by (apply lt_0_INR; exact B).
  rewrite (sum_range_ext 0 n _ (fun j => (sf * 3 * thrust / (INR n * INR n * INR n) / INR blades) * (INR j * INR j))).
  - rewrite sum_range_scale, squares. field. lra.
  - intros j J. unfold interval_load. rewrite !stations_at by lia. unfold at_. rewrite map_nth_R by (rewrite stations_length; lia).
    fold (at_ (blade_stations r n) j). rewrite stations_at by lia. unfold blade_load. rewrite S_INR. field. repeat split; try lra.
Qed.
(** caps *)
Lemma dist_pos : forall p q, 0 <= dist p q.
Proof. intros. apply sqrt_pos. Qed.
Lemma cap_more : forall k p0 l, (forall p, In p l -> 0 <= k p <= k p0) -> cap_inertia k l <= prop_inertia_from k p0 l.
Proof.
  intros k p0 l H. induction l as [|p l IH]; [simpl; lra|]. destruct l as [|q l]; [simpl; lra|].
  change (dist p q * ((k q + k p) / 2 * ((k q + k p) / 2)) + cap_inertia k (q :: l) <= dist p q * ((k q + k p0) / 2 * ((k q + k p0) / 2)) + prop_inertia_from k p0 (q :: l)).
  apply Rplus_le_compat; [|apply IH; intros z Z; apply H; right; exact Z].
  assert (A := H p (or_introl eq_refl)). assert (B := H q (or_intror (or_introl eq_refl))). apply Rmult_le_compat_l; [apply dist_pos | nra].
Qed.
(** the loop *)
Lemma within_exists : forall a b, length a = length b -> exists d, 0 <= d /\ within d a b.
Proof.
  induction a as [|x a IH]; intros [|y b] H; try discriminate H.
  - exists 0. split; [lra|]. split; [reflexivity|]. intros i. destruct i; simpl; rewrite Rminus_0_r, Rabs_R0; lra.
  - destruct (IH b ltac:(simpl in H; lia)) as (d & D & L & B). exists (Rmax d (Rabs (x - y))). split; [eapply Rle_trans; [exact D | apply Rmax_l]|].
    split; [exact H|]. intros [|i]; simpl; [apply Rmax_r|]. eapply Rle_trans; [apply B | apply Rmax_l].
Qed.
Lemma Rabs_le_inv : forall a b, Rabs a <= b -> - b <= a <= b.
Proof. intros a b H. unfold Rabs in H. destruct (Rcase_abs a); lra. Qed.
Lemma maxima_within : forall a b d, within d a b -> Rabs (maxima a - maxima b) <= d.
Proof.
  intros a b d [L H]. assert (D : 0 <= d) by (eapply Rle_trans; [apply Rabs_pos | apply (H 0%nat)]).
  assert (A : maxima a <= maxima b + d).
  { apply maxima_least; [assert (P := maxima_pos b); lra|]. intros j. assert (B := maxima_upper b j). specialize (H j). unfold at_ in *. apply Rabs_le_inv in H. lra. }
  assert (B : maxima b <= maxima a + d).
  { apply maxima_least; [assert (P := maxima_pos a); lra|]. intros j. assert (B := maxima_upper a j). specialize (H j). unfold at_ in *. apply Rabs_le_inv in H. lra. }
  apply Rabs_le. lra.
Qed.
Lemma sum_range_abs : forall i n f, Rabs (sum_range i n f) <= sum_range i n (fun j => Rabs (f j)).
Proof.
  intros i n f. remember (n - i)%nat as k eqn:K. revert i K. induction k as [|k IH]; intros i K; [rewrite !sum_range_nil by lia; rewrite Rabs_R0; lra|].
  rewrite (sum_range_step i n f), (sum_range_step i n (fun j => _)) by lia. eapply Rle_trans; [apply Rabs_triang|]. specialize (IH (S i) ltac:(lia)). lra.
Qed.
Lemma sum_range_minus : forall i n f g, sum_range i n f - sum_range i n g = sum_range i n (fun j => f j - g j).
Proof.
  intros i n f g. rewrite (sum_range_ext i n (fun j => f j - g j) (fun j => f j + (-1) * g j)) by (intros; ring).
  rewrite sum_range_plus, sum_range_scale. ring.
Qed.
Lemma first_moment : forall x i, outwards x -> (i < length x)%nat ->
  sum_range i (pred (length x)) (fun j => (at_ x (S j) - at_ x j) * at_ x j) <= tip x * tip x / 2.
Proof.
  intros x i O I. eapply Rle_trans; [apply (sum_range_leq i _ _ (fun j => at_ x (S j) * at_ x (S j) / 2 - at_ x j * at_ x j / 2))|].
  - intros j J. destruct (O j (S j) ltac:(lia)). nra.
  - rewrite (sum_range_telescopes i (pred (length x)) (fun j => at_ x j * at_ x j / 2)) by lia. unfold tip. destruct (O i i ltac:(lia)). nra.
Qed.
Lemma centrifugal_length : forall b m, (0 < length (b_x b))%nat -> length m = length (b_x b) -> length (centrifugal b m) = length (b_x b).
Proof.
  intros b m P H. unfold centrifugal. rewrite map_length, outboard_length, !map2_length, diffs_length, H. lia.
Qed.
Lemma centrifugal_nth : forall b m i, (i < length (b_x b))%nat -> length m = length (b_x b) ->
  nth i (centrifugal b m) 0 = b_sfw2 b * sum_range i (pred (length (b_x b))) (fun j => at_ m j * ((at_ (b_x b) (S j) - at_ (b_x b) j) * at_ (b_x b) j)).
Proof.
  intros b m i I H. unfold centrifugal. rewrite map_nth_R by (rewrite outboard_length, !map2_length, diffs_length, H; lia). rewrite outboard_nth. f_equal.
  rewrite !map2_length, diffs_length, H. replace (Nat.min (Nat.min (length (b_x b)) (pred (length (b_x b)))) (length (b_x b))) with (pred (length (b_x b))) by lia.
  apply sum_range_ext. intros j J. unfold at_. rewrite !map2_nth_R by (rewrite ?map2_length, ?diffs_length; lia). rewrite diffs_nth by lia. unfold at_. ring.
Qed.
Lemma centrifugal_within : forall b m m' d, outwards (b_x b) -> (0 < length (b_x b))%nat -> 0 <= b_sfw2 b -> length m = length (b_x b) -> within d m m' ->
  within (b_sfw2 b * (d * (tip (b_x b) * tip (b_x b) / 2))) (centrifugal b m) (centrifugal b m').
Proof.
  intros b m m' d O P W L [E H]. assert (D : 0 <= d) by (eapply Rle_trans; [apply Rabs_pos | apply (H 0%nat)]).
  assert (T : 0 <= tip (b_x b) * tip (b_x b) / 2) by nra.
  split; [rewrite !centrifugal_length by lia; reflexivity|]. intros i. destruct (Nat.lt_ge_cases i (length (b_x b))) as [I|I].
  - rewrite !centrifugal_nth by lia. rewrite <- Rmult_minus_distr_l, Rabs_mult, (Rabs_right (b_sfw2 b)) by lra. apply Rmult_le_compat_l; [exact W|].
    rewrite sum_range_minus. eapply Rle_trans; [apply sum_range_abs|].
    apply Rle_trans with (d * sum_range i (pred (length (b_x b))) (fun j => (at_ (b_x b) (S j) - at_ (b_x b) j) * at_ (b_x b) j)).
    + rewrite <- sum_range_scale. apply sum_range_leq. intros j J. rewrite <- Rmult_minus_distr_r, Rabs_mult.
      assert (Q : 0 <= (at_ (b_x b) (S j) - at_ (b_x b) j) * at_ (b_x b) j) by (apply Rmult_le_pos; [apply outwards_step; [exact O | lia] | apply (O j j); lia]).
      rewrite (Rabs_right _ (Rle_ge _ _ Q)). apply Rmult_le_compat_r; [exact Q | apply H].
    + apply Rmult_le_compat_l; [exact D | apply first_moment; assumption].
  - rewrite !nth_overflow by (rewrite centrifugal_length; lia). rewrite Rminus_0_r, Rabs_R0. apply Rmult_le_pos; [exact W | apply Rmult_le_pos; assumption].
Qed.
Lemma step_length : forall b m, (0 < length (b_x b))%nat -> length (b_base b) = length (b_x b) -> length m = length (b_x b) -> length (blade_step b m) = length (b_x b).
Proof. intros b m P B H. unfold blade_step. rewrite map2_length, centrifugal_length by assumption. lia. Qed.
Definition shrink (b : blade) : R := b_sfw2 b * b_den_uts b * (tip (b_x b) * tip (b_x b)) / 2.
Lemma step_within : forall b m m' d, outwards (b_x b) -> (0 < length (b_x b))%nat -> 0 <= b_sfw2 b -> 0 <= b_den_uts b -> length (b_base b) = length (b_x b) ->
  length m = length (b_x b) -> within d m m' -> within (shrink b * d) (blade_step b m) (blade_step b m').
Proof.
  intros b m m' d O P W U B L H. assert (E := proj1 H). assert (C := centrifugal_within b m m' d O P W L H).
  split; [rewrite !step_length by lia; reflexivity|]. intros i. destruct C as [C1 C2]. specialize (C2 i).
  destruct (Nat.lt_ge_cases i (length (b_x b))) as [I|I].
  - unfold blade_step. rewrite !map2_nth_R by (rewrite ?centrifugal_length; lia).
    replace (nth i (b_base b) 0 + nth i (centrifugal b m) 0 * b_den_uts b - (nth i (b_base b) 0 + nth i (centrifugal b m') 0 * b_den_uts b))
      with ((nth i (centrifugal b m) 0 - nth i (centrifugal b m') 0) * b_den_uts b) by ring.
    rewrite Rabs_mult, (Rabs_right (b_den_uts b)) by lra. unfold shrink.
    replace (b_sfw2 b * b_den_uts b * (tip (b_x b) * tip (b_x b)) / 2 * d) with (b_sfw2 b * (d * (tip (b_x b) * tip (b_x b) / 2)) * b_den_uts b) by field.
    apply Rmult_le_compat_r; assumption.
  - rewrite !nth_overflow by (rewrite step_length; lia). rewrite Rminus_0_r, Rabs_R0. 
    assert (D : 0 <= d) by (eapply Rle_trans; [apply Rabs_pos | apply (proj2 H 0%nat)]). unfold shrink. 
    apply Rmult_le_pos; [|exact D]. assert (0 <= b_sfw2 b * b_den_uts b) by (apply Rmult_le_pos; assumption). assert (0 <= tip (b_x b) * tip (b_x b)) by nra. nra.
Qed.
(** how far the mass may move when the distribution moves by d *)
Definition mass_slope (b : blade) : R :=
  INR (b_blades b) * (shrink b * (tip (b_x b) - at_ (b_x b) 0) + Rabs (b_rlen b * b_rden b / b_ruts b) * (b_sfw2 b * (tip (b_x b) * tip (b_x b) / 2))).
Lemma total_within : forall x a c d, outwards x -> (0 < length x)%nat -> length a = length x -> within d a c ->
  Rabs (total (map2 Rmult a (diffs x)) - total (map2 Rmult c (diffs x))) <= d * (tip x - at_ x 0).
Proof.
  intros x a c d O P L [E H]. rewrite !total_range, !map2_length, diffs_length, <- E, L. replace (Nat.min (length x) (pred (length x))) with (pred (length x)) by lia.
  rewrite sum_range_minus. eapply Rle_trans; [apply sum_range_abs|]. unfold tip. rewrite <- (sum_range_telescopes 0 (pred (length x)) (at_ x)) by lia.
  rewrite <- sum_range_scale. apply sum_range_leq. intros j J. rewrite !map2_nth_R by (rewrite ?diffs_length; lia). rewrite diffs_nth by lia.
  rewrite <- Rmult_minus_distr_r, Rabs_mult. assert (Q := outwards_step x j O ltac:(lia)). rewrite (Rabs_right _ (Rle_ge _ _ Q)).
  apply Rmult_le_compat_r; [exact Q | apply H].
Qed.
Lemma mass_within : forall b m m' d, outwards (b_x b) -> (0 < length (b_x b))%nat -> 0 <= b_sfw2 b -> 0 <= b_den_uts b -> length (b_base b) = length (b_x b) ->
  0 < b_rroot b -> b_ruts b <> 0 -> length m = length (b_x b) -> within d m m' ->
  Rabs (blade_mass b m (blade_step b m) - blade_mass b m' (blade_step b m')) <= mass_slope b * d.
Proof.
  intros b m m' d O P W U B RR RU L H. unfold blade_mass, mass_slope.
  assert (T := total_within (b_x b) _ _ _ O P (step_length b m P B L) (step_within b m m' d O P W U B L H)).
  assert (C := maxima_within _ _ _ (centrifugal_within b m m' d O P W L H)).
  set (t := total (map2 Rmult (blade_step b m) (diffs (b_x b)))) in *. set (t' := total (map2 Rmult (blade_step b m') (diffs (b_x b)))) in *.
  set (c := maxima (centrifugal b m)) in *. set (c' := maxima (centrifugal b m')) in *.
  assert (RM : root_mass b c - root_mass b c' = (b_rlen b * b_rden b / b_ruts b) * (c - c')).
  { unfold root_mass. assert (PI <> 0) by exact PI_neq0. field. repeat split; auto. lra. }
  replace (INR (b_blades b) * (t + 2 * b_rib b + root_mass b c) - INR (b_blades b) * (t' + 2 * b_rib b + root_mass b c'))
    with (INR (b_blades b) * ((t - t') + (root_mass b c - root_mass b c'))) by ring.
  rewrite RM, Rabs_mult, (Rabs_right (INR (b_blades b))) by (apply Rle_ge, pos_INR).
  rewrite Rmult_assoc. apply Rmult_le_compat_l; [apply pos_INR|]. eapply Rle_trans; [apply Rabs_triang|].
  rewrite Rabs_mult. assert (A := Rabs_pos (b_rlen b * b_rden b / b_ruts b)). 
  assert (Rabs (b_rlen b * b_rden b / b_ruts b) * Rabs (c - c') <= Rabs (b_rlen b * b_rden b / b_ruts b) * (b_sfw2 b * (d * (tip (b_x b) * tip (b_x b) / 2)))) by (apply Rmult_le_compat_l; assumption).
  nra.
Qed.
Lemma loop_ends : forall b tol, outwards (b_x b) -> (0 < length (b_x b))%nat -> 0 <= b_sfw2 b -> 0 <= b_den_uts b -> length (b_base b) = length (b_x b) ->
  0 < b_rroot b -> b_ruts b <> 0 -> 
  forall k m old d, length m = length (b_x b) -> within d m (blade_step b m) -> mass_slope b * (shrink b ^ k * d) <= tol ->
  exists r, blade_loop (S (S k)) b tol m old = Some r.
Proof.
  intros b tol O P W U B RR RU. induction k as [|k IH]; intros m old d L H T.
  - cbn [blade_loop]. cbv zeta. destruct (Rltb tol _) eqn:E1; [|eexists; reflexivity].
    destruct (Rltb tol (Rabs (blade_mass b (blade_step b m) (blade_step b (blade_step b m)) - blade_mass b m (blade_step b m)))) eqn:E2; [|eexists; reflexivity].
    apply Rltb_true in E2. exfalso. assert (M := mass_within b m (blade_step b m) d O P W U B RR RU L H). rewrite Rabs_minus_sym in M. simpl in T. lra.
  - change (exists r, (if Rltb tol (Rabs (blade_mass b m (blade_step b m) - old)) then blade_loop (S (S k)) b tol (blade_step b m) (blade_mass b m (blade_step b m)) else Some (blade_mass b m (blade_step b m))) = Some r).
    destruct (Rltb tol _); [|eexists; reflexivity]. apply (IH (blade_step b m) _ (shrink b * d)).
    + apply step_length; assumption.
    + apply step_within; assumption.
    + replace (shrink b ^ k * (shrink b * d)) with (shrink b ^ S k * d) by (simpl; ring). exact T.
Qed.
Lemma blade_terminates : forall b tol, 0 < tol -> outwards (b_x b) -> (0 < length (b_x b))%nat -> 0 <= b_sfw2 b -> 0 <= b_den_uts b -> length (b_base b) = length (b_x b) ->
  0 < b_rroot b -> b_ruts b <> 0 -> shrink b < 1 -> forall m old, length m = length (b_x b) -> exists fuel r, blade_loop fuel b tol m old = Some r.
Proof.
  intros b tol T O P W U B RR RU S m old L.
  destruct (within_exists m (blade_step b m)) as (d & D & H); [rewrite step_length by assumption; exact L|].
  assert (S0 : 0 <= shrink b) by (unfold shrink; assert (0 <= b_sfw2 b * b_den_uts b) by (apply Rmult_le_pos; assumption); assert (0 <= tip (b_x b) * tip (b_x b)) by nra; nra).
  assert (M0 : 0 <= mass_slope b).
  { unfold mass_slope. apply Rmult_le_pos; [apply pos_INR|]. apply Rplus_le_le_0_compat; apply Rmult_le_pos.
    - exact S0.
    - unfold tip. destruct (O 0%nat (pred (length (b_x b))) ltac:(lia)). lra.
    - apply Rabs_pos.
    - assert (0 <= tip (b_x b) * tip (b_x b) / 2) by nra. apply Rmult_le_pos; assumption. }
  assert (G : 0 <= mass_slope b * d) by (apply Rmult_le_pos; assumption).
  destruct (pow_lt_1_zero (shrink b)) with (y := tol / (mass_slope b * d + 1)) as (k & K).
  - rewrite Rabs_right by lra. exact S.
  - apply Rdiv_lt_0_compat; lra.
  - specialize (K k (le_n k)). exists (Datatypes.S (Datatypes.S k)). apply (loop_ends b tol O P W U B RR RU k m old d L H).
    assert (0 <= shrink b ^ k) by (apply pow_le; exact S0). rewrite Rabs_right in K by lra.
    assert (E : shrink b ^ k * (mass_slope b * d + 1) <= tol).
    { left. apply Rmult_lt_reg_r with (/ (mass_slope b * d + 1)); [apply Rinv_0_lt_compat; lra|]. rewrite Rmult_assoc, Rinv_r by lra. rewrite Rmult_1_r. exact K. }
    nra.
Qed.

(** ** fuselage *)
Lemma sqrt_grows : forall a b, 0 <= a -> a <= b -> sqrt a <= sqrt b.
Proof. intros. apply sqrt_le_1; lra. Qed.
Lemma keel_bending_eq : forall h g m s, 0 < h_height h -> 0 < h_rbm_uts h -> 
  keel_bending h g m s = g * s * (98 / 10) * h_length h * h_length h / (2 * (h_height h / 10) * h_rbm_uts h) * h_rbm_den h * m.
Proof. intros h g m s A B. unfold keel_bending, design_load. field. split; lra. Qed.
Lemma keel_torsion_eq : forall h g m s, 0 < h_height h -> 0 < h_width h -> 0 < h_shear_uss h -> 
  keel_torsion h g m s = (h_height h / 10 + h_width h / 3) / (h_height h / 10 * (h_width h / 3)) * g * s * (98 / 10) * h_span h / (4 * h_shear_uss h) * h_shear_den h * m.
Proof. intros h g m s A B C. unfold keel_torsion, design_load. field. repeat split; lra. Qed.
(** pads in terms of the root of the take-off weight *)
Lemma pads_eq : forall h m s l, 0 < h_bearing_ubs h -> 0 < h_bolt_uss h -> 0 < m -> 0 < s -> 0 < l ->
  pads h m s l = 4 * PI * 400 / 3 * h_bearing_den h * (sqrt (s * (98 / 10) * l * (6403 / 10000)) * sqrt (h_bolt_uss h * PI) / (2 * h_bearing_ubs h)) ^ 3 * (m * sqrt m).
Proof.
  intros h m s l A B M S L. unfold pads. assert (P := PI_RGT_0). set (c := s * (98 / 10) * l * (6403 / 10000)).
  assert (C : 0 < c) by (unfold c; apply Rmult_lt_0_compat; [apply Rmult_lt_0_compat; [apply Rmult_lt_0_compat; lra | exact L] | lra]).
  replace (s * m * (98 / 10) * l * (6403 / 10000)) with (c * m) by (unfold c; ring).
  assert (Q : sqrt (c * m / h_bolt_uss h / PI) = sqrt c * sqrt m / sqrt (h_bolt_uss h * PI)).
  { replace (c * m / h_bolt_uss h / PI) with (c * m / (h_bolt_uss h * PI)) by (field; lra).
    rewrite sqrt_div_alt by (apply Rmult_lt_0_compat; lra). rewrite sqrt_mult by lra. reflexivity. }
  rewrite Q. assert (SC := sqrt_lt_R0 c C). assert (SM := sqrt_lt_R0 m M). assert (SB := sqrt_lt_R0 (h_bolt_uss h * PI) ltac:(apply Rmult_lt_0_compat; lra)).
  replace (c * m / (2 * (sqrt c * sqrt m / sqrt (h_bolt_uss h * PI)) * h_bearing_ubs h))
    with (sqrt c * sqrt (h_bolt_uss h * PI) / (2 * h_bearing_ubs h) * sqrt m).
  - assert (E := sqrt_sqrt m ltac:(lra)). set (w := sqrt c * sqrt (h_bolt_uss h * PI) / (2 * h_bearing_ubs h)).
    replace (m * sqrt m) with (sqrt m * sqrt m * sqrt m) by (rewrite E; ring). field.
  - rewrite <- (sqrt_sqrt c) at 2 by lra. rewrite <- (sqrt_sqrt m) at 2 by lra. field. repeat split; lra.
Qed.
Lemma shell_grows : forall h g s l m m', sound_shell h -> 0 <= g -> 0 < s -> 0 < l -> 0 < m -> m <= m' -> shell_mass h g m s l <= shell_mass h g m' s l.
Proof.
  intros h g s l m m' [a1 a2 a3 a4 a5 a6 a7 a8 a9 a10 a11] G S L M H. unfold shell_mass.
  assert (K1 : keel_bending h g m s <= keel_bending h g m' s).
  { rewrite !keel_bending_eq by assumption. apply Rmult_le_compat_l; [|exact H]. apply Rmult_le_pos; [|exact a5].
    apply Rmult_le_pos; [|left; apply Rinv_0_lt_compat; apply Rmult_lt_0_compat; [lra | exact a6]].
    apply Rmult_le_pos; [apply Rmult_le_pos; [apply Rmult_le_pos; [apply Rmult_le_pos; lra | lra] | lra] | lra]. }
  assert (K2 : keel_torsion h g m s <= keel_torsion h g m' s).
  { rewrite !keel_torsion_eq by assumption. apply Rmult_le_compat_l; [|exact H]. apply Rmult_le_pos; [|exact a7].
    apply Rmult_le_pos; [|left; apply Rinv_0_lt_compat; lra]. apply Rmult_le_pos; [|exact a4]. apply Rmult_le_pos; [|lra]. apply Rmult_le_pos; [|lra].
    apply Rmult_le_pos; [|exact G]. apply Rmult_le_pos; [lra|]. left. apply Rinv_0_lt_compat. apply Rmult_lt_0_compat; lra. }
  assert (K3 : pads h m s l <= pads h m' s l).
  { rewrite !pads_eq by (try assumption; lra). apply Rmult_le_compat_l.
    - assert (P := PI_RGT_0). apply Rmult_le_pos; [apply Rmult_le_pos; [lra | exact a9]|]. apply pow_le.
      apply Rmult_le_pos; [apply Rmult_le_pos; apply sqrt_pos | left; apply Rinv_0_lt_compat; lra].
    - apply Rmult_le_compat; [lra | apply sqrt_pos | exact H | apply sqrt_grows; lra]. }
  lra.
Qed.
Lemma pads_scale : forall h m s l k, 0 < h_bearing_ubs h -> 0 < h_bolt_uss h -> 0 < m -> 0 < s -> 0 < l -> 0 < k ->
  pads h (k * m) s l = k * sqrt k * pads h m s l.
Proof.
  intros h m s l k A B M S L K. rewrite !pads_eq by (try assumption; apply Rmult_lt_0_compat; assumption). rewrite (sqrt_mult k m) by lra. ring.
Qed.
Lemma pw_positive : forall x y, 0 < x -> pw x y = Rpower x y.
Proof. intros x y H. unfold pw. replace (Rltb 0 x) with true; [reflexivity|]. symmetry. apply Rltb_true. exact H. Qed.
Lemma wetted_scale : forall h k, 0 < h_length h -> 0 < h_width h -> 0 < h_height h -> 0 < k -> shell_wetted (stretched k h) = k * k * shell_wetted h.
Proof.
  intros h k A B C K. unfold shell_wetted, stretched. cbn [h_length h_width h_height].
  replace (k * h_length h * (k * h_width h) / 4) with (k * k * (h_length h * h_width h / 4)) by field.
  replace (k * h_length h * (k * h_height h) / 4) with (k * k * (h_length h * h_height h / 4)) by field.
  replace (k * h_width h * (k * h_height h) / 4) with (k * k * (h_width h * h_height h / 4)) by field.
  assert (K2 : 0 < k * k) by nra.
  assert (P1 : 0 < h_length h * h_width h / 4) by (apply Rmult_lt_0_compat; [apply Rmult_lt_0_compat; assumption | lra]). assert (P2 : 0 < h_length h * h_height h / 4) by (apply Rmult_lt_0_compat; [apply Rmult_lt_0_compat; assumption | lra]). assert (P3 : 0 < h_width h * h_height h / 4) by (apply Rmult_lt_0_compat; [apply Rmult_lt_0_compat; assumption | lra]).
  assert (Z : forall u, 0 < u -> pw (k * k * u) (16 / 10) = Rpower (k * k) (16 / 10) * Rpower u (16 / 10)).
  { intros u U. rewrite pw_positive by (apply Rmult_lt_0_compat; assumption). symmetry; apply Rpower_mult_distr; assumption. }
  rewrite !Z by assumption. rewrite !(pw_positive _ (16 / 10)) by assumption.
  set (a := Rpower (h_length h * h_width h / 4) (16 / 10)). set (b := Rpower (h_length h * h_height h / 4) (16 / 10)). set (c := Rpower (h_width h * h_height h / 4) (16 / 10)).
  assert (0 < a) by apply exp_pos. assert (0 < b) by apply exp_pos. assert (0 < c) by apply exp_pos.
  assert (Q : 0 < Rpower (k * k) (16 / 10)) by apply exp_pos.
  replace ((Rpower (k * k) (16 / 10) * a + Rpower (k * k) (16 / 10) * b + Rpower (k * k) (16 / 10) * c) / 3) with (Rpower (k * k) (16 / 10) * ((a + b + c) / 3)) by field.
  rewrite !pw_positive by (try apply Rmult_lt_0_compat; lra). rewrite <- Rpower_mult_distr by lra. rewrite Rpower_mult.
  replace (16 / 10 * (1 / (16 / 10))) with 1 by field. rewrite Rpower_1 by exact K2. ring.
Qed.

(** ** statement *)
Lemma sum_over_ext : forall {A} (f g : A -> R) l, (forall x, f x = g x) -> sum_over f l = sum_over g l.
Proof. intros A f g l H. induction l; simpl; [reflexivity|]. rewrite H, IHl. reflexivity. Qed.
(** the masses stored in the units of a list: servo weight once a unit of variable pitch has been met *)
Fixpoint stored_masses (f : rotor -> R) (hub kg servo : R) (l : list rotor) : list R :=
  match l with [] => [] | z :: r => let s := if z_pitch z then kg else servo in (f z + hub + s) :: stored_masses f hub kg s r end.
Lemma units_eq : forall f hub kg l servo bl mo st last_,
  units_loop f hub kg l servo bl mo st last_ =
  (if any_variable l then kg else servo, bl + sum_over f l, mo + sum_over z_motor l, st ++ stored_masses f hub kg servo l,
   match l with [] => last_ | z :: _ => Some (z_tip (last l z), z_solidity (last l z)) end).
Proof.
  intros f hub kg l. induction l as [|z l IH]; intros servo bl mo st last_.
  - simpl. rewrite app_nil_r, !Rplus_0_r. reflexivity.
  - cbn [units_loop]. cbv zeta. rewrite IH. cbn [any_variable existsb sum_over stored_masses]. cbv zeta. f_equal; [f_equal; [f_equal; [f_equal|]|]|].
    + destruct (z_pitch z); simpl orb; [|reflexivity]. unfold any_variable. destruct (existsb z_pitch l); reflexivity.
    + ring.
    + ring.
    + rewrite <- app_assoc. reflexivity.
    + destruct l as [|y l]; [reflexivity|]. f_equal. change (last (z :: y :: l) z) with (last (y :: l) z). rewrite (last_default (y :: l) y z) by congruence. reflexivity.
Qed.
Lemma fold_err : forall c nets e, fold_left (one_enet c) nets (Err e) = Err e.
Proof. intros c nets e. induction nets as [|n nets IH]; [reflexivity|]. exact IH. Qed.
Definition net_stored (c : craft) (nl nt : nat) (p r : list rotor) : list R :=
  (if Nat.eqb nt 0 then [] else stored_masses (fun z => c_blade c z (max_lift c / 5)) (c_mtow c * (4 / 100)) (52 / 10) 0 p)
  ++ (if Nat.eqb nl 0 then [] else stored_masses (fun z => c_blade c z (max_lift c / INR (Nat.max (nl - 1) 1))) 4 (65 / 100) 0 r).
Lemma units_fitted : forall n nl nt p r, network_units n = Ok (nl, nt, p, r) <-> fitted n nl nt p r.
Proof.
  intros n nl nt p r. split.
  - destruct n as [a b c d|us|]; simpl; intros H; [injection H as <- <- <- <-; constructor | | discriminate H].
    destruct (count_kind KPropeller us) as [|a] eqn:A; destruct (count_kind KLiftRotor us) as [|b] eqn:B; try discriminate H; injection H as <- <- <- <-.
    + assert (Q := fitted_lift_rotors us A). rewrite B in Q. exact Q.
    + assert (Q := fitted_lift_rotors us A). rewrite B in Q. exact Q.
    + assert (Q := fitted_propellers us B ltac:(rewrite A; discriminate)). rewrite A in Q. exact Q.
  - intros H. destruct H as [| us A B | us A]; [reflexivity| |].
    + simpl. rewrite A. destruct (count_kind KPropeller us); [congruence | reflexivity].
    + simpl. rewrite A. reflexivity.
Qed.
Lemma Ok_inj : forall {A} (a b : A), Ok a = Ok b -> a = b.
Proof. intros A a b H. injection H as E. exact E. Qed.
Ltac fin B I0 := cbn [t_lift t_prop t_lift_motors t_prop_motors t_batt t_pay t_servos t_hubs t_brs t_stored Nat.eqb]; rewrite ?I0;
  repeat split; try exact B; try ring; try (cbn [sum_over stored_masses app]; rewrite ?app_nil_r; reflexivity); try (cbn [sum_over any_variable existsb]; ring); try (unfold tail_of; cbv zeta; ring).
(** what one network adds *)
Lemma one_net : forall c t n t', one_enet c (Ok t) n = Ok t' -> exists nl nt p r, fitted (n_net n) nl nt p r /\
  (let s := share_of c nl nt p r (n_battery n) (n_payload n) in
   t_lift t' = t_lift t + s_blades_l s + s_tail s /\ t_prop t' = t_prop t + s_blades_p s /\
   t_lift_motors t' + t_prop_motors t' = t_lift_motors t + t_prop_motors t + s_motors s /\
   t_batt t' = t_batt t + s_battery s /\ t_pay t' = t_pay t + s_payload s /\ t_servos t' = t_servos t + s_servos s /\ t_hubs t' = t_hubs t + s_hubs s /\
   t_brs t' = t_brs t + s_brs s /\ t_stored t' = t_stored t ++ net_stored c nl nt p r).
Proof.
  intros c t n t' H.
  assert (F : exists nl nt p r, fitted (n_net n) nl nt p r /\ network_units (n_net n) = Ok (nl, nt, p, r)).
  { unfold one_enet in H. cbn [bind] in H. destruct (network_units (n_net n)) as [[[[nl nt] p] r]|e] eqn:E; [|discriminate H]. 
    exists nl, nt, p, r. split; [|reflexivity]. apply units_fitted. exact E. }
  destruct F as (nl & nt & p & r & F & E). exists nl, nt, p, r. split; [exact F|].
  unfold one_enet in H. cbn [bind] in H. rewrite E in H. cbn [bind] in H. clear E F. unfold share_of, net_stored. cbv zeta. cbn [s_blades_p s_blades_l s_tail s_motors s_servos s_hubs s_brs s_battery s_payload].
  rewrite !units_eq in H. cbn [app] in H.
  assert (BRS : t_brs t + ((if Nat.ltb 1 (nl + nt) then 16 else 0) + 16) = t_brs t + (if Nat.ltb 1 (nl + nt) then 32 else 16)) by (destruct (Nat.ltb 1 (nl + nt)); ring).
  assert (I0 : INR 0 = 0) by reflexivity.
  destruct nt as [|nt]; destruct nl as [|nl]; cbn [Nat.eqb] in H |- *; rewrite ?units_eq in H; cbn [app] in H.
  - destruct (t_last t) as [[tp so]|]; [|discriminate H]. cbn [bind] in H. apply Ok_inj in H; subst t'. fin BRS I0.
  - destruct r as [|z r].
    + destruct (t_last t) as [[tp so]|]; [|discriminate H]. destruct nl as [|nl]; [discriminate H|]. cbn [bind] in H. apply Ok_inj in H; subst t'. fin BRS I0.
    + destruct nl as [|nl]; rewrite ?units_eq in H; cbn [bind app] in H; apply Ok_inj in H; subst t'; fin BRS I0.
  - destruct p as [|z p].
    + destruct (t_last t) as [[tp so]|]; [|discriminate H]. cbn [bind] in H. apply Ok_inj in H; subst t'. fin BRS I0.
    + cbn [bind] in H. apply Ok_inj in H; subst t'. fin BRS I0.
  - set (last1 := match p with [] => t_last t | z :: _ => Some (z_tip (last p z), z_solidity (last p z)) end) in H.
    destruct r as [|z r].
    + destruct last1 as [[tp so]|]; [|discriminate H]. destruct nl as [|nl]; [discriminate H|]. cbn [bind] in H. apply Ok_inj in H; subst t'. fin BRS I0.
    + destruct nl as [|nl]; rewrite ?units_eq in H; cbn [bind app] in H; apply Ok_inj in H; subst t'; fin BRS I0.
Qed.
Definition adds (c : craft) (t t' : tally) (ss : list share) : Prop :=
  t_lift t' = t_lift t + sum_over s_blades_l ss + sum_over s_tail ss /\ t_prop t' = t_prop t + sum_over s_blades_p ss /\
  t_lift_motors t' + t_prop_motors t' = t_lift_motors t + t_prop_motors t + sum_over s_motors ss /\
  t_batt t' = t_batt t + sum_over s_battery ss /\ t_pay t' = t_pay t + sum_over s_payload ss /\ t_servos t' = t_servos t + sum_over s_servos ss /\
  t_hubs t' = t_hubs t + sum_over s_hubs ss /\ t_brs t' = t_brs t + sum_over s_brs ss.
Lemma all_nets : forall c nets t t', fold_left (one_enet c) nets (Ok t) = Ok t' -> exists ss, Forall2 (brings c) nets ss /\ adds c t t' ss.
Proof.
  intros c nets. induction nets as [|n nets IH]; intros t t' H.
  - injection H as <-. exists []. split; [constructor|]. unfold adds. simpl. repeat split; ring.
  - cbn [fold_left] in H. destruct (one_enet c (Ok t) n) as [t1|e] eqn:E; [|rewrite fold_err in H; discriminate H].
    destruct (one_net c t n t1 E) as (nl & nt & p & r & F & A). cbv zeta in A. destruct (IH t1 t' H) as (ss & FA & B).
    exists (share_of c nl nt p r (n_battery n) (n_payload n) :: ss). split; [constructor; [exists nl, nt, p, r; split; [exact F | reflexivity] | exact FA]|].
    destruct A as (A1 & A2 & A3 & A4 & A5 & A6 & A7 & A8 & _). destruct B as (B1 & B2 & B3 & B4 & B5 & B6 & B7 & B8). unfold adds. cbn [sum_over].
    repeat split; lra.
Qed.
Lemma wings_fold : forall (pw : option (R * nat)) eta wings a b r,
  fold_left (fun acc w => bind acc (fun a => match pw with
                    | None => Err UnboundLocalError
                    | Some (p, n) => Ok (fst a + (if w_symbolic w then 0 else w_weight w), snd a + w_wiring w (p / (eta * INR n)))
                    end)) wings (Ok (a, b)) = Ok r ->
  fst r = a + sum_over wing_weight wings /\
  match pw with Some (p, n) => snd r = b + sum_over (fun w => w_wiring w (p / (eta * INR n))) wings | None => wings = [] /\ snd r = b end.
Proof.
  intros pw eta wings. induction wings as [|w wings IH]; intros a b r H.
  - injection H as <-. simpl. destruct pw as [[p n]|]; repeat split; ring.
  - cbn [fold_left bind] in H. destruct pw as [[p n]|].
    + apply IH in H. destruct H as [H1 H2]. cbn [sum_over]. rewrite H1, H2. unfold wing_weight at 2. cbn [fst snd]. split; ring.
    + exfalso. clear IH. induction wings as [|v wings IH]; [discriminate H|]. apply IH. exact H.
Qed.
Lemma evtol_sums : forall c pax eta k nets wings fuse o, evtol_empty c pax eta k nets wings fuse = Ok o ->
  exists ss f t, Forall2 (brings c) nets ss /\ fuse = Some f /\ fold_left (one_enet c) nets (Ok tally0) = Ok t /\
  o_prop o = sum_over s_blades_p ss /\ o_lift o = sum_over s_blades_l ss + sum_over s_tail ss /\ o_motors o = sum_over s_motors ss /\
  o_battery o = sum_over s_battery ss /\ o_payload o = sum_over s_payload ss /\ o_servos o = sum_over s_servos ss /\ o_hubs o = sum_over s_hubs ss /\
  o_brs o = sum_over s_brs ss /\ o_wings o = sum_over wing_weight wings /\ o_fuselage o = f /\ o_gear o = 2 / 100 * c_mtow c /\ o_avionics o = 15 /\ o_seats o = 15 * pax /\ o_pax o = 70 * pax /\ o_ecs o = 7 * pax /\
  o_structural o = o_prop o + o_lift o + o_hubs o + f + o_gear o + o_wings o /\
  o_empty o = k * (o_structural o + o_seats o + o_avionics o + o_ecs o + o_motors o + o_servos o + o_wiring o + o_brs o) + o_battery o /\
  o_total o = o_empty o + o_payload o + o_pax o /\ o_rotor_masses o = t_stored t /\ o_fuselage_mass o = f + o_pax o + o_seats o + o_wiring o + o_brs o /\
  match t_power t with Some (p, n) => o_wiring o = sum_over (fun w => w_wiring w (p / (eta * INR n))) wings | None => wings = [] /\ o_wiring o = 0 end.
Proof.
  intros c pax eta k nets wings fuse o H. unfold evtol_empty in H.
  destruct (fold_left (one_enet c) nets (Ok tally0)) as [t|e] eqn:E; [|discriminate H]. cbn [bind] in H.
  match type of H with bind ?x _ = _ => destruct x as [ww|e] eqn:EW; [|discriminate H] end. cbn [bind] in H.
  destruct fuse as [f|]; [|discriminate H]. injection H as <-. destruct (all_nets c nets tally0 t E) as (ss & F & A).
  apply wings_fold in EW. destruct EW as [W1 W2]. destruct A as (A1 & A2 & A3 & A4 & A5 & A6 & A7 & A8). cbn in A1, A2, A3, A4, A5, A6, A7, A8.
  exists ss, f, t. split; [exact F|]. split; [reflexivity|]. split; [reflexivity|].
  cbn [o_lift o_prop o_motors o_battery o_payload o_servos o_hubs o_brs o_seats o_pax o_avionics o_gear o_ecs o_wings o_wiring o_fuselage o_structural o_empty o_total o_rotor_masses o_fuselage_mass].
  repeat split; try lra; try reflexivity.
  destruct (t_power t) as [[p n]|]; [lra|]. destruct W2. split; [assumption | lra].
Qed.
(** one network *)
Lemma stored_total : forall f hub kg l servo, (l = [] \/ any_variable l = match l with z :: _ => z_pitch z | [] => false end) ->
  (any_variable l = false -> servo = 0) ->
  sum_over (fun x => x) (stored_masses f hub kg (if any_variable l then kg else servo) l) = sum_over f l + INR (length l) * (hub + (if any_variable l then kg else 0)).
Proof.
  intros f hub kg l servo H S.
  assert (G : forall l s, (any_variable l = true -> s = kg) -> sum_over (fun x => x) (stored_masses f hub kg s l) = sum_over f l + INR (length l) * (hub + s)).
  { clear. induction l as [|z l IH]; intros s A; [simpl; ring|]. cbn [stored_masses sum_over]. cbv zeta. cbn [any_variable existsb] in A.
    assert (Z : (if z_pitch z then kg else s) = s) by (destruct (z_pitch z); [symmetry; apply A; reflexivity | reflexivity]).
    rewrite Z. rewrite IH by (intros V; apply A; unfold any_variable in V; rewrite V; apply orb_true_r). change (length (z :: l)) with (S (length l)). rewrite S_INR. ring. }
  rewrite G by (intros V; rewrite V; reflexivity). destruct (any_variable l); [reflexivity|]. rewrite S by reflexivity. reflexivity.
Qed.
Lemma stored_first : forall f hub kg l, any_variable l = match l with z :: _ => z_pitch z | [] => false end ->
  sum_over (fun x => x) (stored_masses f hub kg 0 l) = sum_over f l + INR (length l) * (hub + (if any_variable l then kg else 0)).
Proof.
  intros f hub kg l H. rewrite <- (stored_total f hub kg l 0 (or_intror H) (fun _ => eq_refl)). destruct l as [|z l]; [reflexivity|].
  rewrite H. cbn [stored_masses]. destruct (z_pitch z); reflexivity.
Qed.
Lemma sum_id_app : forall a b : list R, sum_over (fun x => x) (a ++ b) = sum_over (fun x => x) a + sum_over (fun x => x) b.
Proof. induction a; intros b; simpl; [ring|]. rewrite IHa. ring. Qed.
Lemma stored_nth : forall f hub kg l servo i z, nth_error l i = Some z ->
  nth_error (stored_masses f hub kg servo l) i = Some (f z + hub + (if any_variable (firstn (S i) l) then kg else servo)).
Proof.
  intros f hub kg l. induction l as [|a l IH]; intros servo i z H; [destruct i; discriminate H|].
  destruct i as [|i]; cbn [nth_error stored_masses] in *; cbv zeta.
  - injection H as <-. cbn [firstn any_variable existsb]. rewrite orb_false_r. reflexivity.
  - rewrite (IH _ i z H). change (firstn (S (S i)) (a :: l)) with (a :: firstn (S i) l). unfold any_variable. cbn [existsb]. destruct (z_pitch a); cbn [orb]; [|reflexivity].
    destruct (existsb z_pitch (firstn (S i) l)); reflexivity.
Qed.
Lemma sum_over_pos : forall {A} (f : A -> R) l, (forall x, In x l -> 0 <= f x) -> 0 <= sum_over f l.
Proof.
  intros A f l H. induction l as [|a l IH]; simpl; [lra|]. assert (0 <= f a) by (apply H; left; reflexivity).
  assert (0 <= sum_over f l) by (apply IH; intros x X; apply H; right; exact X). lra.
Qed.
