(** * Proofs about the trust-region optimiser *)
From Coq Require Import Reals String List Bool Lia Lra.
From Verif Require Import PyBase M_Opt S_Opt P_Opt M_Swarm S_Swarm P_Swarm M_TRMM.
Import ListNotations.
Local Open Scope R_scope.
Local Open Scope list_scope.

(** ** correction *)
Lemma vsub_self x : vsub x x = map (fun _ => 0) x.
Proof. induction x as [|a x IH]; [reflexivity|]. unfold vsub in *. cbn. rewrite IH. f_equal. lra. Qed.
Lemma dot_zero a x : dot a (map (fun _ : R => 0) x) = 0.
Proof. revert x. induction a as [|c a IH]; intros [|y x]; cbn; try reflexivity. rewrite IH. lra. Qed.
Lemma dot_vsub_l a b x : List.length a = List.length b -> dot (vsub a b) x = dot a x - dot b x.
Proof.
  revert b x. induction a as [|c a IH]; intros [|d b] [|y x] L; cbn in *; try discriminate; try lra.
  unfold vsub in IH. rewrite (IH b x) by lia. lra.
Qed.
Lemma dot_vsub_r a x y : List.length x = List.length y -> List.length a = List.length x -> dot a (vsub x y) = dot a x - dot a y.
Proof.
  revert x y. induction a as [|c a IH]; intros [|u x] [|v y] L1 L2; cbn in *; try discriminate; try lra.
  unfold vsub in IH. rewrite (IH x y) by lia. lra.
Qed.
Lemma map2_zero_r (f : R -> R -> R) a n : (forall x, f x 0 = x) -> List.length a = n -> map2 f a (repeat 0 n) = a.
Proof. intros Hf. revert n. induction a as [|x a IH]; intros [|n] L; cbn in *; try discriminate; [reflexivity|]. rewrite Hf, IH by lia. reflexivity. Qed.
Lemma vadd_vsub a b : List.length a = List.length b -> vadd a (vsub b a) = b.
Proof.
  revert b. induction a as [|x a IH]; intros [|y b] L; cbn in *; try discriminate; [reflexivity|].
  unfold vadd, vsub in *. rewrite IH by lia. f_equal. lra.
Qed.
Lemma const_at_centre x0 rows : map (fun row => dot row (vsub x0 x0)) rows = repeat 0 (List.length rows).
Proof. rewrite vsub_self. induction rows as [|r rows IH]; [reflexivity|]. cbn [map List.length repeat]. rewrite dot_zero, IH. reflexivity. Qed.

Lemma corr_obj_centre lo hi lo_f x0 : lo_f x0 = lv_f lo -> corrected_objective lo_f (calculate_correction lo hi) x0 x0 = lv_f hi.
Proof. intros H. unfold corrected_objective, calculate_correction. cbn. rewrite vsub_self, dot_zero, H. lra. Qed.
Lemma corr_con_centre lo hi lo_g x0 : lo_g x0 = lv_g lo -> List.length (lv_g lo) = List.length (lv_g hi) ->
  List.length (lv_dg lo) = List.length (lv_g lo) -> List.length (lv_dg hi) = List.length (lv_g lo) ->
  corrected_constraints lo_g (calculate_correction lo hi) x0 x0 = lv_g hi.
Proof.
  intros H L1 L2 L3. unfold corrected_constraints, calculate_correction. cbn [fst snd tl]. rewrite H.
  rewrite (const_at_centre x0 (map2 vsub (lv_dg hi) (lv_dg lo))).
  rewrite (map2_len _ _ _ _ L3 L2). unfold vadd at 2. rewrite (map2_zero_r Rplus) by (auto; intros; lra).
  apply vadd_vsub. exact L1.
Qed.

(** affine discrepancy *)
Lemma corr_obj_affine lo hi lo_f hi_f x0 c x : lo_f x0 = lv_f lo -> hi_f x0 = lv_f hi ->
  List.length (lv_df lo) = List.length x0 -> List.length (lv_df hi) = List.length x0 -> List.length x = List.length x0 ->
  (forall y, List.length y = List.length x0 -> hi_f y - lo_f y = c + dot (vsub (lv_df hi) (lv_df lo)) y) ->
  corrected_objective lo_f (calculate_correction lo hi) x0 x = hi_f x.
Proof.
  intros H1 H2 L1 L2 Lx Ha. unfold corrected_objective, calculate_correction. cbn [fst snd hd].
  rewrite dot_vsub_r by (try (unfold vsub; apply map2_len); congruence).
  pose proof (Ha x Lx) as A. pose proof (Ha x0 eq_refl) as B. rewrite H1, H2 in B. lra.
Qed.
Lemma corr_con_affine lo hi lo_g hi_g x0 (cs : vec) x : lo_g x0 = lv_g lo -> hi_g x0 = lv_g hi ->
  List.length (lv_dg lo) = List.length cs -> List.length (lv_dg hi) = List.length cs ->
  Forall (fun r => List.length r = List.length x0) (lv_dg lo) -> Forall (fun r => List.length r = List.length x0) (lv_dg hi) ->
  List.length x = List.length x0 ->
  (forall y, List.length y = List.length x0 -> List.length (lo_g y) = List.length cs /\ List.length (hi_g y) = List.length cs) ->
  (forall y, List.length y = List.length x0 ->
     vsub (hi_g y) (lo_g y) = map2 (fun c row => c + dot row y) cs (map2 vsub (lv_dg hi) (lv_dg lo))) ->
  corrected_constraints lo_g (calculate_correction lo hi) x0 x = hi_g x.
Proof.
  intros H1 H2 L1 L2 F1 F2 Lx Lg Ha. unfold corrected_constraints, calculate_correction. cbn [fst snd tl].
  rewrite <- H1, <- H2, (Ha x0 eq_refl).
  pose proof (Ha x Lx) as A. destruct (Lg x Lx) as [G1 G2].
  assert (Hl : List.length (map2 vsub (lv_dg hi) (lv_dg lo)) = List.length cs) by (apply map2_len; auto).
  assert (Fr : Forall (fun r => List.length r = List.length x0) (map2 vsub (lv_dg hi) (lv_dg lo))).
  { clear -F1 F2. revert F1. generalize (lv_dg lo). induction F2 as [|r l Hr _ IH]; intros l2 F1; [constructor|].
    destruct l2 as [|r2 l2]; [constructor|]. inversion F1; subst. cbn [map2]. constructor; [unfold vsub; apply map2_len; auto|auto]. }
  revert Hl Fr A. generalize (map2 vsub (lv_dg hi) (lv_dg lo)). intros rows Hl Fr A.
  revert G1 G2 A Hl. generalize (lo_g x) (hi_g x) cs. clear -Fr Lx.
  induction Fr as [|r rows Hr _ IH]; intros [|a lg] [|b hg] [|c cs] G1 G2 A Hl; cbn in G1, G2, Hl; try lia; try discriminate; [reflexivity|].
  cbn [vsub vadd map map2] in *. inversion A as [[A1 A2]]. f_equal.
  - rewrite dot_vsub_r by congruence. lra.
  - apply (IH lg hg cs); try lia. exact A2.
Qed.

(** gradient at the centre *)
Lemma vsub_perturb x0 i e : (i < List.length x0)%nat ->
  vsub (perturb x0 i e) x0 = set_nth i e (map (fun _ => 0) x0).
Proof.
  unfold perturb. revert i. induction x0 as [|a x IH]; intros i Hi; [cbn in Hi; lia|]. destruct i as [|i]; cbn in *.
  - change (map2 Rminus x x) with (vsub x x). rewrite vsub_self. f_equal. lra.
  - unfold vsub in IH. rewrite IH by lia. f_equal. lra.
Qed.
Lemma dot_set_nth a x i e : (i < List.length x)%nat -> List.length a = List.length x ->
  dot a (set_nth i e (map (fun _ : R => 0) x)) = e * nth i a 0.
Proof.
  revert a i. induction x as [|y x IH]; intros a i Hi L; [cbn in Hi; lia|]. destruct a as [|c a]; [discriminate|].
  destruct i as [|i]; cbn in *; [rewrite dot_zero; lra|]. rewrite IH by lia. lra.
Qed.
Lemma nth_vsub a b i : List.length a = List.length b -> nth i (vsub a b) 0 = nth i a 0 - nth i b 0.
Proof.
  revert b i. induction a as [|x a IH]; intros [|y b] i L; try discriminate; destruct i; cbn; try lra.
  unfold vsub in IH. apply IH. cbn in L. lia.
Qed.
Lemma corr_obj_gradient lo hi lo_f x0 i : (i < List.length x0)%nat ->
  List.length (lv_df lo) = List.length x0 -> List.length (lv_df hi) = List.length x0 ->
  derivable_pt_lim (fun e => lo_f (perturb x0 i e)) 0 (nth i (lv_df lo) 0) ->
  derivable_pt_lim (fun e => corrected_objective lo_f (calculate_correction lo hi) x0 (perturb x0 i e)) 0 (nth i (lv_df hi) 0).
Proof.
  intros Hi L1 L2 H. intros eps Heps. destruct (H eps Heps) as [d Hd]. exists d. intros h Hh0 Hh.
  specialize (Hd h Hh0 Hh). unfold corrected_objective, calculate_correction. cbn [fst snd hd].
  rewrite !vsub_perturb by exact Hi.
  rewrite !dot_set_nth by (auto; unfold vsub; apply map2_len; auto).
  rewrite !nth_vsub by congruence.
  match type of Hd with Rabs ?X < _ => match goal with |- Rabs ?Y < _ => replace Y with X; [exact Hd|] end end.
  rewrite !Rplus_0_l. field. exact Hh0.
Qed.
Lemma nth_vadd a b i : List.length a = List.length b -> nth i (vadd a b) 0 = nth i a 0 + nth i b 0.
Proof.
  revert b i. induction a as [|x a IH]; intros [|y b] i L; try discriminate; destruct i; cbn; try lra.
  unfold vadd in IH. apply IH. cbn in L. lia.
Qed.
Lemma corr_con_gradient lo hi lo_g x0 i j m : (i < List.length x0)%nat -> (j < m)%nat ->
  List.length (lv_dg lo) = m -> List.length (lv_dg hi) = m -> List.length (lv_g lo) = m -> List.length (lv_g hi) = m ->
  Forall (fun r => List.length r = List.length x0) (lv_dg lo) -> Forall (fun r => List.length r = List.length x0) (lv_dg hi) ->
  (forall y, List.length (lo_g y) = m) ->
  derivable_pt_lim (fun e => nth j (lo_g (perturb x0 i e)) 0) 0 (nth i (nth j (lv_dg lo) []) 0) ->
  derivable_pt_lim (fun e => nth j (corrected_constraints lo_g (calculate_correction lo hi) x0 (perturb x0 i e)) 0) 0
    (nth i (nth j (lv_dg hi) []) 0).
Proof.
  intros Hi Hj L1 L2 L3 L4 F1 F2 Lg H. intros eps Heps. destruct (H eps Heps) as [d Hd]. exists d. intros h Hh0 Hh.
  specialize (Hd h Hh0 Hh).
  assert (E : forall e, nth j (corrected_constraints lo_g (calculate_correction lo hi) x0 (perturb x0 i e)) 0 =
     nth j (lo_g (perturb x0 i e)) 0 + e * (nth i (nth j (lv_dg hi) []) 0 - nth i (nth j (lv_dg lo) []) 0) + (nth j (lv_g hi) 0 - nth j (lv_g lo) 0)).
  { intros e. unfold corrected_constraints, calculate_correction. cbn [fst snd tl].
    assert (Lr : List.length (map2 vsub (lv_dg hi) (lv_dg lo)) = m) by (apply map2_len; auto).
    assert (Lrow : List.length (map (fun row => dot row (vsub (perturb x0 i e) x0)) (map2 vsub (lv_dg hi) (lv_dg lo))) = m) by (rewrite map_length; exact Lr).
    rewrite nth_vadd by (unfold vadd, vsub; rewrite !(map2_len _ _ _ m); auto).
    rewrite nth_vadd by (rewrite Lrow; apply Lg). rewrite nth_vsub by congruence. f_equal. f_equal.
    rewrite (nth_map_lt (fun row => dot row (vsub (perturb x0 i e) x0)) (map2 vsub (lv_dg hi) (lv_dg lo)) j []) by (eapply PeanoNat.Nat.lt_le_trans; [exact Hj|apply PeanoNat.Nat.eq_le_incl; symmetry; exact Lr]). rewrite vsub_perturb by exact Hi.
    assert (N : nth j (map2 vsub (lv_dg hi) (lv_dg lo)) [] = vsub (nth j (lv_dg hi) []) (nth j (lv_dg lo) [])).
    { apply nth_error_nth. apply map2_nth; apply nth_error_nth'; lia. }
    rewrite N. rewrite Forall_forall in F1, F2.
    assert (R1 : List.length (nth j (lv_dg lo) []) = List.length x0) by (apply F1, nth_In; lia).
    assert (R2 : List.length (nth j (lv_dg hi) []) = List.length x0) by (apply F2, nth_In; lia).
    rewrite dot_set_nth by (auto; unfold vsub; apply map2_len; auto). rewrite nth_vsub by congruence. reflexivity. }
  rewrite !E.
  match type of Hd with Rabs ?X < _ => match goal with |- Rabs ?Y < _ => replace Y with X; [exact Hd|] end end.
  rewrite !Rplus_0_l. field. exact Hh0.
Qed.

(** ** radius *)
Lemma size_cases t size rho acc :
  let '(s, a) := update_tr_size t size rho acc in
  (s = size * contraction_factor t /\ a = 1%nat) \/ (s = size /\ a = 2%nat /\ acc = true) \/
  (s = size * expansion_factor t /\ a = 3%nat /\ acc = true /\ expand_threshold t < rho <= 5 / 4).
Proof.
  unfold update_tr_size. destruct acc; cbn [negb]; [|left; auto].
  destruct (Rltb rho 0); [left; auto|]. destruct (Rltb (contract_threshold t) rho); cbn [negb]; [|left; auto].
  destruct (Rltb (expand_threshold t) rho) eqn:E; cbn [negb]; [|right; left; auto].
  destruct (Rltb (5 / 4) rho) eqn:E2; cbn [negb]; [right; left; auto|].
  right; right. apply Rltb_true in E. apply Rltb_false in E2. auto.
Qed.

(** ** bounds *)
Lemma tr_bounds_inside x_low x_up x size y : inside x_low x_up x -> 0 <= size ->
  inside (tr_lower x_low x size) (tr_upper x_up x size) y ->
  inside x_low x_up y /\ Forall2 (fun a b => Rabs (a - b) <= size) y x.
Proof.
  intros H Hs. revert y. induction H as [|l u a lb ub xs Hlu _ IH]; intros y Hy; cbn in Hy.
  - inversion Hy; subst. split; constructor.
  - inversion Hy as [|? ? b ? ? ys Hb Hys]; subst. destruct (IH ys Hys) as [A B]. split.
    + constructor; [|exact A]. pose proof (Rmax_l l (a - size)). pose proof (Rmin_l u (a + size)). lra.
    + constructor; [|exact B]. pose proof (Rmax_r l (a - size)). pose proof (Rmin_r u (a + size)).
      apply Rabs_le. lra.
Qed.
(** the trust region around an interior point is not empty *)
Lemma tr_nonempty x_low x_up x size : inside x_low x_up x -> 0 <= size ->
  inside (tr_lower x_low x size) (tr_upper x_up x size) x.
Proof.
  intros H Hs. induction H as [|l u a lb ub xs Hlu _ IH]; cbn; constructor; [|exact IH].
  split; [apply Rmax_lub; lra|apply Rmin_glb; lra].
Qed.

Section Loop.
  Variable t : trust.
  Variable precision tolerance : R.
  Variables x_low x_up : vec.
  Variable edges : list (option R * option R).
  Variable hi_f : vec -> R.
  Variable hi_g : vec -> vec.
  Variable solve : nat -> vec -> vec -> vec -> answer.
  Variable solve_violation : nat -> vec -> list (option R * option R) -> answer.
  Notation step := (step t precision tolerance x_low x_up edges hi_f hi_g solve solve_violation).
  Notation loop := (loop t precision tolerance x_low x_up edges hi_f hi_g solve solve_violation).
  Notation viol x := (violation (hi_g x) edges).

  Definition better (x' x : vec) : Prop := hi_f x' < hi_f x \/ viol x' < viol x.

  Lemma step_next n x size x' size' f xo : step n x size = Next x' size' f xo ->
    minimum_size t <= size' /\
    (size' = size * contraction_factor t \/ size' = size \/ size' = size * expansion_factor t) /\
    ((x' = x /\ size' = size * contraction_factor t) \/
     (better x' x /\ x' = a_x (if a_success (solve n x (tr_lower x_low x size) (tr_upper x_up x size))
                               then solve n x (tr_lower x_low x size) (tr_upper x_up x size)
                               else solve_violation n x edges))).
  Proof.
    unfold M_TRMM.step.
    set (first := solve n x (tr_lower x_low x size) (tr_upper x_up x size)).
    set (a := if a_success first then first else solve_violation n x edges).
    set (rho := accuracy_ratio _ _ _ _ _ _ _). set (acc := Rltb (hi_f (a_x a)) (hi_f x) || Rltb (viol (a_x a)) (viol x)).
    pose proof (size_cases t size rho acc) as SC. destruct (update_tr_size t size rho acc) as [s act] eqn:Eu.
    destruct (Rltb s (minimum_size t)) eqn:E1; [discriminate|]. apply Rltb_false in E1.
    destruct (negb (a_success first) && Nat.ltb act 3 && all_close (a_x a) x); [discriminate|].
    destruct (acc && Rltb (Rabs (hi_f x - hi_f (a_x a))) tolerance); [discriminate|].
    intros H. inversion H; subst; clear H. split; [exact E1|]. split; [intuition|].
    destruct acc eqn:Ea.
    - right. split; [|reflexivity]. unfold better. unfold acc in Ea. apply orb_prop in Ea as [Ea|Ea]; apply Rltb_true in Ea; auto.
    - left. split; [reflexivity|]. unfold update_tr_size in Eu. cbn in Eu. inversion Eu. reflexivity.
  Qed.

  Lemma loop_length k : forall n x size last, (List.length (snd (loop k n x size last)) <= k)%nat.
  Proof.
    induction k as [|k IH]; intros n x size last; cbn [M_TRMM.loop]; [cbn; lia|].
    destruct (step n x size) as [f xo m|x' size' f xo]; [cbn; lia|].
    specialize (IH (S n) x' size' (Some (f, xo))). destruct (loop k (S n) x' size' (Some (f, xo))). cbn in *. lia.
  Qed.
  Lemma loop_head k n x size last : (0 < k)%nat -> nth_error (snd (loop k n x size last)) 0 = Some (x, size).
  Proof.
    destruct k as [|k]; [lia|]. intros _. cbn [M_TRMM.loop]. destruct (step n x size) as [f xo m|x' size' f xo]; [reflexivity|].
    destruct (loop k (S n) x' size' (Some (f, xo))). reflexivity.
  Qed.
  (** consecutive log entries come from a step *)
  Lemma loop_consecutive k : forall n x size last i e e', nth_error (snd (loop k n x size last)) i = Some e ->
    nth_error (snd (loop k n x size last)) (S i) = Some e' ->
    exists f xo, step (n + i) (fst e) (snd e) = Next (fst e') (snd e') f xo.
  Proof.
    induction k as [|k IH]; intros n x size last i e e' H1 H2; cbn [M_TRMM.loop] in *; [destruct i; discriminate|].
    destruct (step n x size) as [f xo m|x' size' f xo] eqn:Es; [destruct i; discriminate|].
    pose proof (IH (S n) x' size' (Some (f, xo))) as IH'. pose proof (loop_head k (S n) x' size' (Some (f, xo))) as Hh.
    destruct (loop k (S n) x' size' (Some (f, xo))) as [r log] eqn:El. cbn [snd] in *.
    destruct i as [|i]; cbn in H1.
    - inversion H1; subst. change (nth_error log 0 = Some e') in H2. destruct k as [|k'].
      + cbn in El. inversion El; subst. discriminate.
      + rewrite Hh in H2 by lia. inversion H2; subst. cbn [fst snd]. replace (n + 0)%nat with n by lia. eauto.
    - change (nth_error log (S i) = Some e') in H2. replace (n + S i)%nat with (S n + i)%nat by lia. eauto.
  Qed.
  Lemma loop_inv (P : vec -> R -> Prop) : (forall n x size x' size' f xo, P x size -> step n x size = Next x' size' f xo -> P x' size') ->
    forall k n x size last, P x size -> Forall (fun e => P (fst e) (snd e)) (snd (loop k n x size last)).
  Proof.
    intros Hstep. induction k as [|k IH]; intros n x size last H; cbn [M_TRMM.loop]; [constructor|].
    destruct (step n x size) as [f xo m|x' size' f xo] eqn:Es; [repeat constructor; exact H|].
    specialize (IH (S n) x' size' (Some (f, xo)) (Hstep _ _ _ _ _ _ _ H Es)).
    destruct (loop k (S n) x' size' (Some (f, xo))) as [r log]. cbn [snd] in *. constructor; [exact H|exact IH].
  Qed.
End Loop.

(** ** violation *)
Lemma viol_terms_pos g e : Forall (fun d => 0 < d) (viol_terms g e).
Proof.
  unfold viol_terms. apply Forall_app. split.
  - destruct (fst e) as [l|]; [|constructor]. destruct (Rltb g l) eqn:E; [|constructor]. apply Rltb_true in E. constructor; [lra|constructor].
  - destruct (snd e) as [l|]; [|constructor]. destruct (Rltb l g) eqn:E; [|constructor]. apply Rltb_true in E. constructor; [lra|constructor].
Qed.
Lemma sum_sq_nonneg l : 0 <= fold_right Rplus 0 (map (fun d => d * d) l).
Proof. induction l as [|d l IH]; cbn; [lra|]. pose proof (Rle_0_sqr d) as H. unfold Rsqr in H. lra. Qed.
Lemma sum_sq_pos l : Forall (fun d => 0 < d) l -> fold_right Rplus 0 (map (fun d => d * d) l) = 0 <-> l = [].
Proof.
  intros H. split; [|intros ->; reflexivity]. destruct H as [|d l Hd _]; [reflexivity|]. cbn. intros E.
  pose proof (sum_sq_nonneg l). pose proof (Rmult_lt_0_compat d d Hd Hd). lra.
Qed.
Lemma concat_pos : forall g edges, Forall (fun d => 0 < d) (List.concat (map2 viol_terms g edges)).
Proof.
  induction g as [|a g IH]; intros [|e edges]; cbn; try constructor. apply Forall_app. split; [apply viol_terms_pos|apply IH].
Qed.
Lemma violation_zero g edges : violation g edges = 0 <-> List.concat (map2 viol_terms g edges) = [].
Proof.
  unfold violation. rewrite <- (sum_sq_pos _ (concat_pos g edges)). split; intros H.
  - apply sqrt_eq_0; [apply sum_sq_nonneg|exact H].
  - rewrite H. apply sqrt_0.
Qed.
Lemma concat_map2_nil g edges : List.length g = List.length edges ->
  List.concat (map2 viol_terms g edges) = [] <-> Forall2 (fun a e => viol_terms a e = []) g edges.
Proof.
  revert edges. induction g as [|a g IH]; intros [|e edges] L; try discriminate; cbn.
  - split; intros; constructor.
  - split.
    + intros H. apply app_eq_nil in H as [H1 H2]. constructor; [exact H1|]. apply IH; [cbn in L; lia|exact H2].
    + intros H. inversion H; subst. rewrite H3. cbn. apply IH; [cbn in L; lia|assumption].
Qed.
Lemma viol_terms_nil c value : known_sense c -> 0 < c_scale c ->
  viol_terms (scale_const_value c (value (c_name c))) (con_edges c) = [] <-> satisfied c value.
Proof.
  intros Hk Hs. rewrite <- (pyopt_correct c value Hk Hs). unfold con_edges, pyopt_constraint, pyopt_edge, viol_terms.
  destruct (sense_bools c) as (G & L & E).
  destruct Hk as [Hk|[Hk|Hk]]; [destruct (G Hk) as (B1 & B2 & B3)|destruct (L Hk) as (B1 & B2 & B3)|destruct (E Hk) as (B1 & B2 & B3)];
    rewrite ?B1, ?B2, ?B3; cbn [fst snd accepts app].
  - rewrite app_nil_r. destruct (Rltb (scale_const_value c (value (c_name c))) (scale_const_value c (scale_const_bnd c))) eqn:E1;
      [apply Rltb_true in E1|apply Rltb_false in E1]; split; intros H; try discriminate; try reflexivity; try lra.
  - destruct (Rltb (scale_const_value c (scale_const_bnd c)) (scale_const_value c (value (c_name c)))) eqn:E1;
      [apply Rltb_true in E1|apply Rltb_false in E1]; split; intros H; try discriminate; try reflexivity; try lra.
  - destruct (Rltb (scale_const_value c (value (c_name c))) (scale_const_value c (scale_const_bnd c))) eqn:E1;
      [apply Rltb_true in E1|apply Rltb_false in E1].
    { split; [discriminate|lra]. }
    destruct (Rltb (scale_const_value c (scale_const_bnd c)) (scale_const_value c (value (c_name c)))) eqn:E2;
      [apply Rltb_true in E2|apply Rltb_false in E2]; split; intros H; try discriminate; try reflexivity; try lra.
Qed.
Lemma slsqp_sign c value : c_sense c = ">"%string \/ c_sense c = "<"%string -> 0 < c_scale c ->
  (slsqp_constraint c (scale_const_value c (value (c_name c))) >= 0 <->
   (c_sense c = ">"%string /\ value (c_name c) >= c_bound c * c_scale c) \/
   (c_sense c = "<"%string /\ value (c_name c) <= c_bound c * c_scale c)).
Proof.
  intros Hs H1. unfold slsqp_constraint, scale_const_value.
  destruct (sense_bools c) as (G & L & E).
  set (v := value (c_name c)). set (b := c_bound c). set (s := c_scale c) in *.
  assert (D : v = (v / s) * s) by (field; lra).
  destruct Hs as [Hs|Hs].
  - destruct (G Hs) as (_ & -> & _). rewrite Hs. split.
    + intros H. left. split; [reflexivity|]. rewrite D. apply Rle_ge. apply Rmult_le_compat_r; lra.
    + intros [[_ H]|[H _]]; [|discriminate]. rewrite D in H. apply Rge_le in H. apply Rmult_le_reg_r in H; lra.
  - destruct (L Hs) as (_ & -> & _). rewrite Hs. split.
    + intros H. right. split; [reflexivity|]. rewrite D. apply Rmult_le_compat_r; lra.
    + intros [[H _]|[_ H]]; [discriminate|]. rewrite D in H. apply Rmult_le_reg_r in H; lra.
Qed.
