(** * C18, C19 (and part of C47): the trust-region optimiser *)
From Coq Require Import Reals String List Bool Lia Lra Arith.
From Verif Require Import PyBase M_Opt S_Opt P_Opt M_Swarm S_Swarm M_TRMM P_TRMM.
Import ListNotations.
Local Open Scope R_scope.
Local Open Scope list_scope.

(** ** C18 *)
(** C18: at the centre the corrected objective and constraints are the high-fidelity ones *)
Theorem C18_value_objective : forall lo hi lo_f x0, lo_f x0 = lv_f lo ->
  corrected_objective lo_f (calculate_correction lo hi) x0 x0 = lv_f hi.
Proof. exact corr_obj_centre. Qed.
Theorem C18_value_constraints : forall lo hi lo_g x0, lo_g x0 = lv_g lo -> List.length (lv_g lo) = List.length (lv_g hi) ->
  List.length (lv_dg lo) = List.length (lv_g lo) -> List.length (lv_dg hi) = List.length (lv_g lo) ->
  corrected_constraints lo_g (calculate_correction lo hi) x0 x0 = lv_g hi.
Proof. exact corr_con_centre. Qed.
(** C18: so are the partial derivatives, when the low-fidelity ones are those of the model *)
Theorem C18_gradient_objective : forall lo hi lo_f x0 i, (i < List.length x0)%nat ->
  List.length (lv_df lo) = List.length x0 -> List.length (lv_df hi) = List.length x0 ->
  derivable_pt_lim (fun e => lo_f (perturb x0 i e)) 0 (nth i (lv_df lo) 0) ->
  derivable_pt_lim (fun e => corrected_objective lo_f (calculate_correction lo hi) x0 (perturb x0 i e)) 0 (nth i (lv_df hi) 0).
Proof. exact corr_obj_gradient. Qed.
Theorem C18_gradient_constraints : forall lo hi lo_g x0 i j m, (i < List.length x0)%nat -> (j < m)%nat ->
  List.length (lv_dg lo) = m -> List.length (lv_dg hi) = m -> List.length (lv_g lo) = m -> List.length (lv_g hi) = m ->
  Forall (fun r => List.length r = List.length x0) (lv_dg lo) -> Forall (fun r => List.length r = List.length x0) (lv_dg hi) ->
  (forall y, List.length (lo_g y) = m) ->
  derivable_pt_lim (fun e => nth j (lo_g (perturb x0 i e)) 0) 0 (nth i (nth j (lv_dg lo) []) 0) ->
  derivable_pt_lim (fun e => nth j (corrected_constraints lo_g (calculate_correction lo hi) x0 (perturb x0 i e)) 0) 0
    (nth i (nth j (lv_dg hi) []) 0).
Proof. exact corr_con_gradient. Qed.
(** C18: when the two levels differ by an affine function the corrected model is the high-fidelity one *)
Theorem C18_affine_objective : forall lo hi lo_f hi_f x0 c x, lo_f x0 = lv_f lo -> hi_f x0 = lv_f hi ->
  List.length (lv_df lo) = List.length x0 -> List.length (lv_df hi) = List.length x0 -> List.length x = List.length x0 ->
  (forall y, List.length y = List.length x0 -> hi_f y - lo_f y = c + dot (vsub (lv_df hi) (lv_df lo)) y) ->
  corrected_objective lo_f (calculate_correction lo hi) x0 x = hi_f x.
Proof. exact corr_obj_affine. Qed.
Theorem C18_affine_constraints : forall lo hi lo_g hi_g x0 (cs : vec) x, lo_g x0 = lv_g lo -> hi_g x0 = lv_g hi ->
  List.length (lv_dg lo) = List.length cs -> List.length (lv_dg hi) = List.length cs ->
  Forall (fun r => List.length r = List.length x0) (lv_dg lo) -> Forall (fun r => List.length r = List.length x0) (lv_dg hi) ->
  List.length x = List.length x0 ->
  (forall y, List.length y = List.length x0 -> List.length (lo_g y) = List.length cs /\ List.length (hi_g y) = List.length cs) ->
  (forall y, List.length y = List.length x0 ->
     vsub (hi_g y) (lo_g y) = map2 (fun c row => c + dot row y) cs (map2 vsub (lv_dg hi) (lv_dg lo))) ->
  corrected_constraints lo_g (calculate_correction lo hi) x0 x = hi_g x.
Proof. exact corr_con_affine. Qed.
(** x^2 as low, x^2 + 3x + 1 as high fidelity, centre 2 *)
Definition ex_lo : level_values := {| lv_f := 4; lv_df := [4]; lv_g := [2]; lv_dg := [[1]] |}.
Definition ex_hi : level_values := {| lv_f := 11; lv_df := [7]; lv_g := [5]; lv_dg := [[2]] |}.
Example C18_case :
  let lo_f := fun x => nth 0 x 0 * nth 0 x 0 in
  lo_f [2] = lv_f ex_lo /\ derivable_pt_lim (fun e => lo_f (perturb [2] 0 e)) 0 (nth 0 (lv_df ex_lo) 0) /\
  corrected_objective lo_f (calculate_correction ex_lo ex_hi) [2] [5] = 5 * 5 + 3 * 5 + 1 /\
  corrected_constraints (fun x => [nth 0 x 0]) (calculate_correction ex_lo ex_hi) [2] [4] = [2 * 4 + 1].
Proof.
  cbn. split; [lra|]. split; [|split; [unfold corrected_objective; cbn; lra|unfold corrected_constraints; cbn; f_equal; lra]].
  intros eps He. exists (mkposreal eps He). intros h Hh0 Hh. cbn in Hh.
  replace (((2 + (0 + h)) * (2 + (0 + h)) - (2 + 0) * (2 + 0)) / h - 4) with h by (field; exact Hh0). exact Hh.
Qed.

(** ** C19 *)
Section Props.
  Variable t : trust.
  Variable precision tolerance : R.
  Variables x_low x_up : vec.
  Variable edges : list (option R * option R).
  Variable hi_f : vec -> R.
  Variable hi_g : vec -> vec.
  Variable solve : nat -> vec -> vec -> vec -> answer.
  Variable solve_violation : nat -> vec -> list (option R * option R) -> answer.
  Notation run k x size := (optimize t precision tolerance x_low x_up edges hi_f hi_g solve solve_violation k x size).

  (** C19: at most the configured number of iterations *)
  Theorem C19_stops : forall k x size, (List.length (snd (run k x size)) <= k)%nat.
  Proof. intros. apply loop_length. Qed.
  (** C19: the radius stays positive *)
  Theorem C19_radius_positive : forall k x size, 0 < size -> 0 < contraction_factor t -> 0 < expansion_factor t ->
    Forall (fun e => 0 < snd e) (snd (run k x size)).
  Proof.
    intros k x size Hs Hc He.
    apply (loop_inv t precision tolerance x_low x_up edges hi_f hi_g solve solve_violation (fun _ s => 0 < s)); [|exact Hs].
    intros n x1 s1 x2 s2 f xo H1 H2. apply step_next in H2 as (_ & [-> | [-> | ->]] & _); [|exact H1|]; apply Rmult_lt_0_compat; auto.
  Qed.
  (** C19: from one iteration to the next the radius is multiplied by the contraction factor, by 1 or
      by the expansion factor; the centre is kept, and then the radius contracts; or the new centre
      has a strictly smaller high-fidelity objective or constraint violation *)
  Theorem C19_steps : forall k x size i x1 s1 x2 s2,
    nth_error (snd (run k x size)) i = Some (x1, s1) -> nth_error (snd (run k x size)) (S i) = Some (x2, s2) ->
    (s2 = s1 * contraction_factor t \/ s2 = s1 \/ s2 = s1 * expansion_factor t) /\
    ((x2 = x1 /\ s2 = s1 * contraction_factor t) \/
     hi_f x2 < hi_f x1 \/ violation (hi_g x2) edges < violation (hi_g x1) edges).
  Proof.
    intros k x size i x1 s1 x2 s2 H1 H2.
    destruct (loop_consecutive t precision tolerance x_low x_up edges hi_f hi_g solve solve_violation k 1 x size None i _ _ H1 H2) as (f & xo & Hs).
    cbn [fst snd] in Hs. apply step_next in Hs as (_ & A & B). split; [exact A|]. destruct B as [B|[B _]]; [left; exact B|right; exact B].
  Qed.
  (** C19: with a sub-optimiser that succeeds within the bounds it is given, every centre is inside
      the design bounds and the next one is within the radius in every coordinate *)
  Theorem C19_centres : forall k x size,
    (forall n y s, inside x_low x_up y -> 0 < s ->
       a_success (solve n y (tr_lower x_low y s) (tr_upper x_up y s)) = true /\
       inside (tr_lower x_low y s) (tr_upper x_up y s) (a_x (solve n y (tr_lower x_low y s) (tr_upper x_up y s)))) ->
    inside x_low x_up x -> 0 < size -> 0 < contraction_factor t -> 0 < expansion_factor t ->
    Forall (fun e => inside x_low x_up (fst e)) (snd (run k x size)) /\
    forall i x1 s1 x2 s2, nth_error (snd (run k x size)) i = Some (x1, s1) -> nth_error (snd (run k x size)) (S i) = Some (x2, s2) ->
      Forall2 (fun a b => Rabs (a - b) <= s1) x2 x1.
  Proof.
    intros k x size Ho Hx Hs Hc He.
    assert (Hinv : Forall (fun e => inside x_low x_up (fst e) /\ 0 < snd e) (snd (run k x size))).
    { apply (loop_inv t precision tolerance x_low x_up edges hi_f hi_g solve solve_violation (fun y s => inside x_low x_up y /\ 0 < s)); [|auto].
      intros n x1 s1 x2 s2 f xo [H1 H1'] H2. apply step_next in H2 as (_ & S & B).
      split; [|destruct S as [-> | [-> | ->]]; auto; apply Rmult_lt_0_compat; auto].
      destruct B as [[-> _] | [_ ->]]; [exact H1|]. destruct (Ho n x1 s1 H1 H1') as [-> I].
      apply (tr_bounds_inside x_low x_up x1 s1 _ H1) in I; [apply I|lra]. }
    split; [eapply Forall_impl; [|exact Hinv]; cbn; tauto|].
    intros i x1 s1 x2 s2 H1 H2.
    rewrite Forall_forall in Hinv. destruct (Hinv _ (nth_error_In _ _ H1)) as [I1 P1]. cbn [fst snd] in I1, P1.
    destruct (loop_consecutive t precision tolerance x_low x_up edges hi_f hi_g solve solve_violation k 1 x size None i _ _ H1 H2) as (f & xo & St).
    cbn [fst snd] in St. apply step_next in St as (_ & _ & [[-> _] | [_ ->]]).
    - clear -P1. induction x1; constructor; auto. replace (a - a) with 0 by lra. rewrite Rabs_R0. lra.
    - destruct (Ho (1 + i)%nat x1 s1 I1 P1) as [-> I]. apply (tr_bounds_inside x_low x_up x1 s1 _ I1) in I; [apply I|lra].
  Qed.
  (** C19: the trust region offered is never empty around a centre inside the bounds *)
  Theorem C19_region_nonempty : forall x size, inside x_low x_up x -> 0 <= size ->
    inside (tr_lower x_low x size) (tr_upper x_up x size) x.
  Proof. intros. apply tr_nonempty; auto. Qed.
End Props.
(** C19: the radius never grows on a rejected step, and grows only when the ratio of actual to
    predicted improvement is between the expansion threshold and 1.25 *)
Theorem C19_radius_rule : forall t size rho accepted s action, update_tr_size t size rho accepted = (s, action) ->
  (s = size * contraction_factor t /\ action = 1%nat) \/ (s = size /\ action = 2%nat /\ accepted = true) \/
  (s = size * expansion_factor t /\ action = 3%nat /\ accepted = true /\ expand_threshold t < rho <= 5 / 4).
Proof. intros t size rho acc s a H. pose proof (size_cases t size rho acc) as S. rewrite H in S. exact S. Qed.

(** ** witnesses *)
Definition c1 (x : vec) : R := nth 0 x 0.
Definition honest : nat -> vec -> vec -> vec -> answer :=
  fun _ x lo up => {| a_f := c1 lo; a_x := lo; a_g := []; a_success := true |}.
(** a sub-optimiser that answers the lower corner meets the hypotheses of C19_centres *)
Example C19_centres_case : forall n y s, inside [0] [1] y -> 0 < s ->
  a_success (honest n y (tr_lower [0] y s) (tr_upper [1] y s)) = true /\
  inside (tr_lower [0] y s) (tr_upper [1] y s) (a_x (honest n y (tr_lower [0] y s) (tr_upper [1] y s))).
Proof.
  intros n y s H Hs. split; [reflexivity|]. inversion H as [|? ? a ? ? xs Ha Hxs]; subst. inversion Hxs; subst.
  cbn. constructor; [|constructor]. split; [lra|]. apply Rmin_glb; apply Rmax_lub; lra.
Qed.
Lemma min_small : minimum_size default_trust < 1 / 100.
Proof.
  cbn [minimum_size default_trust]. replace (1 / 100) with (/ 10 ^ 2) by (cbn; field). apply Rinv_lt_contravar.
  - apply Rmult_lt_0_compat; apply pow_lt; lra.
  - apply Rlt_pow; [lra|lia].
Qed.
Lemma Rltb_t a b : a < b -> Rltb a b = true. Proof. apply Rltb_true. Qed.
Lemma Rltb_f a b : b <= a -> Rltb a b = false. Proof. apply Rltb_false. Qed.

(** C19: what is returned need not be the best design, nor even an accepted one: when the last step
    was rejected the rejected point and the model's prediction for it are returned *)
Definition optimist : nat -> vec -> vec -> vec -> answer :=
  fun _ _ _ _ => {| a_f := -1; a_x := [1 / 4]; a_g := []; a_success := true |}.
Theorem C19_returns_rejected_refuted : exists f x log,
  optimize default_trust (1 / 1000) (1 / 1000) [-1] [1] [] c1 (fun _ => []) optimist (fun _ _ _ => optimist 0%nat [] [] [])
    1 [0] (1 / 2) = (Some (f, x, MaxIterations), log) /\
  inside (tr_lower [-1] [0] (1 / 2)) (tr_upper [1] [0] (1 / 2)) x /\
  Forall (fun e => c1 (fst e) < c1 x) log /\ f <> c1 x.
Proof.
  unfold optimize. cbn [loop]. unfold step. cbn [a_success a_x a_f a_g optimist negb andb].
  assert (V : violation [] [] = 0) by (unfold violation; cbn; apply sqrt_0). rewrite V.
  unfold c1. cbn [nth]. rewrite (Rltb_f (1/4) 0) by lra. rewrite (Rltb_f 0 0) by lra. cbn [orb].
  unfold update_tr_size. cbn [negb]. rewrite Rltb_f by (cbn [contraction_factor default_trust]; pose proof min_small; lra).
  cbn [andb]. do 3 eexists. split; [reflexivity|]. split.
  - cbn. constructor; [|constructor]. split; [apply Rmax_lub; lra|apply Rmin_glb; lra].
  - split; [constructor; [cbn; lra|constructor]|cbn; lra].
Qed.

(** C19: with SLSQP a failed sub-problem is followed by one whose variables are bounded by the
    constraint edges; the next centre can be outside the design bounds *)
Definition failing : nat -> vec -> vec -> vec -> answer :=
  fun _ x _ _ => {| a_f := 0; a_x := x; a_g := x; a_success := false |}.
Definition rescue : nat -> vec -> list (option R * option R) -> answer :=
  fun _ _ _ => {| a_f := 0; a_x := [7]; a_g := [7]; a_success := true |}.
Lemma viol_one g b : violation [g] [(Some b, None)] = if Rltb g b then b - g else 0.
Proof.
  unfold violation, viol_terms. cbn [map2 fst snd]. destruct (Rltb g b) eqn:E; cbn.
  - apply Rltb_true in E. rewrite Rplus_0_r. apply sqrt_square. lra.
  - apply sqrt_0.
Qed.
Theorem C19_leaves_bounds_refuted : exists x1 s1,
  inside [0] [1] [1 / 2] /\
  (forall n x, Forall2 (fun y e => (forall l, fst e = Some l -> l <= y) /\ (forall u, snd e = Some u -> y <= u))
                       (a_x (rescue n x [(Some 5, None)])) [(Some 5, None)]) /\
  nth_error (snd (optimize default_trust (1 / 1000) (1 / 1000) [0] [1] [(Some 5, None)] (fun x => - c1 x) (fun x => x) failing rescue
    2 [1 / 2] (1 / 2))) 1 = Some (x1, s1) /\ ~ inside [0] [1] x1.
Proof.
  exists [7]. eexists. split; [constructor; [lra|constructor]|]. split.
  { intros n x. cbn. constructor; [|constructor]. cbn. split; intros y H; [inversion H; lra|discriminate]. }
  split; [|intros H; inversion H; subst; lra].
  unfold optimize. cbn [loop].
  unfold step at 1. cbn [a_success a_x a_f a_g failing rescue negb].
  rewrite !viol_one. rewrite (Rltb_t (1 / 2) 5) by lra. rewrite (Rltb_f 7 5) by lra.
  unfold c1. cbn [nth]. rewrite (Rltb_t (- (7)) (- (1 / 2))) by lra. cbn [orb].
  unfold accuracy_ratio, merit. unfold c1. cbn [nth].
  rewrite (Rltb_f (Rabs (- (1 / 2) + (5 - 1 / 2) * (5 - 1 / 2) - (0 + 0 * 0)))) by (rewrite Rabs_right; lra).
  match goal with |- context [update_tr_size _ _ ?r _] => set (rho := r) end.
  assert (Hr : rho > 5 / 4).
  { unfold rho. replace (- (1 / 2) + (5 - 1 / 2) * (5 - 1 / 2) - (0 + 0 * 0)) with (79 / 4) by field.
    replace (- (1 / 2) + (5 - 1 / 2) * (5 - 1 / 2) - (- (7) + 0 * 0)) with (107 / 4) by field. lra. }
  unfold update_tr_size at 1. cbn [negb]. rewrite (Rltb_f rho 0) by lra.
  rewrite (Rltb_t (contract_threshold default_trust) rho) by (cbn; lra). rewrite (Rltb_t (expand_threshold default_trust) rho) by (cbn; lra).
  rewrite (Rltb_t (5 / 4) rho) by lra. cbn [negb].
  rewrite (Rltb_f (1 / 2) (minimum_size default_trust)) by (pose proof min_small; lra).
  assert (AC : all_close [7] [1 / 2] = false).
  { cbn [all_close]. rewrite (Rltb_t (/ 10 ^ 14 + / 10 ^ 15 * Rabs (1 / 2)) (Rabs (7 - 1 / 2))); [reflexivity|].
    rewrite !Rabs_right by lra. assert (/ 10 ^ 14 < 1). { rewrite <- Rinv_1. apply Rinv_lt_contravar; [rewrite Rmult_1_l; apply pow_lt; lra|]. replace 1 with (10 ^ 0) by reflexivity. apply Rlt_pow; [lra|lia]. }
    assert (/ 10 ^ 15 < 1). { rewrite <- Rinv_1. apply Rinv_lt_contravar; [rewrite Rmult_1_l; apply pow_lt; lra|]. replace 1 with (10 ^ 0) by reflexivity. apply Rlt_pow; [lra|lia]. }
    lra. }
  rewrite AC. rewrite andb_false_r. unfold c1. cbn [nth].
  rewrite (Rltb_f (Rabs (- (1 / 2) - - (7)))) by (rewrite Rabs_right; lra). cbn [andb].
  destruct (step _ _ _ _ _ _ _ _ _ _ _ _ _); reflexivity.
Qed.

(** C19: since either a smaller objective or a smaller violation is enough, the iterates can cycle
    for ever, with the radius growing: here between an infeasible and a feasible design *)
Definition cyc_f (x : vec) : R := 10 * c1 x.
Definition cyc_g (x : vec) : vec := [c1 x].
Definition cyc_edges : list (option R * option R) := [(Some 1, None)].
Definition cyc_solve : nat -> vec -> vec -> vec -> answer := fun _ x _ _ =>
  if Rltb (c1 x) (1 / 2) then {| a_f := 10; a_x := [1]; a_g := [1]; a_success := true |}
  else {| a_f := 0; a_x := [0]; a_g := [1]; a_success := true |}.
Notation cyc_step := (step default_trust (1 / 1000) (1 / 1000) [0] [1] cyc_edges cyc_f cyc_g cyc_solve (fun _ _ _ => honest 0%nat [] [] [])).
Lemma cyc_up n s : 1 <= s -> cyc_step n [0] s = Next [1] (s * (3 / 2)) 10 [1].
Proof.
  intros Hs. unfold step, cyc_solve, cyc_g, cyc_f. unfold c1. cbn [nth].
  rewrite !(Rltb_t 0 (1 / 2)) by lra. cbn [a_success a_x a_f a_g nth c1 negb andb]. unfold cyc_edges. rewrite !viol_one.
  rewrite (Rltb_t 0 1) by lra. rewrite (Rltb_f 1 1) by lra.
  unfold accuracy_ratio, merit. rewrite (Rltb_f (Rabs (10 * 0 + (1 - 0) * (1 - 0) - (10 + 0 * 0)))) by (rewrite Rabs_left; lra).
  match goal with |- context [update_tr_size _ _ ?r _] => replace r with 1 by field end.
  rewrite (Rltb_f (10 * 1) (10 * 0)) by lra. rewrite (Rltb_t 0 (1 - 0)) by lra. cbn [orb].
  unfold update_tr_size. cbn [negb]. rewrite (Rltb_f 1 0) by lra.
  rewrite (Rltb_t (contract_threshold default_trust) 1) by (cbn; lra). rewrite (Rltb_t (expand_threshold default_trust) 1) by (cbn; lra).
  rewrite (Rltb_f (5 / 4) 1) by lra. cbn [negb].
  rewrite Rltb_f by (pose proof min_small; cbn [expansion_factor default_trust]; cbn [minimum_size default_trust] in *; lra).
  rewrite (Rltb_f (Rabs (10 * 0 - 10 * 1))) by (rewrite Rabs_left; lra). reflexivity.
Qed.
Lemma cyc_down n s : 1 <= s -> cyc_step n [1] s = Next [0] (s * (3 / 2)) 0 [0].
Proof.
  intros Hs. unfold step, cyc_solve, cyc_g, cyc_f. unfold c1. cbn [nth].
  rewrite !(Rltb_f 1 (1 / 2)) by lra. cbn [a_success a_x a_f a_g nth c1 negb andb]. unfold cyc_edges. rewrite !viol_one.
  rewrite (Rltb_t 0 1) by lra. rewrite (Rltb_f 1 1) by lra.
  unfold accuracy_ratio, merit. rewrite (Rltb_f (Rabs (10 * 1 + 0 * 0 - (0 + 0 * 0)))) by (rewrite Rabs_right; lra).
  match goal with |- context [update_tr_size _ _ ?r _] => replace r with (9 / 10) by field end.
  rewrite (Rltb_t (10 * 0) (10 * 1)) by lra. cbn [orb].
  unfold update_tr_size. cbn [negb]. rewrite (Rltb_f (9 / 10) 0) by lra.
  rewrite (Rltb_t (contract_threshold default_trust) (9 / 10)) by (cbn; lra). rewrite (Rltb_t (expand_threshold default_trust) (9 / 10)) by (cbn; lra).
  rewrite (Rltb_f (5 / 4) (9 / 10)) by lra. cbn [negb].
  rewrite Rltb_f by (pose proof min_small; cbn [expansion_factor default_trust]; cbn [minimum_size default_trust] in *; lra).
  rewrite (Rltb_f (Rabs (10 * 1 - 10 * 0))) by (rewrite Rabs_right; lra). reflexivity.
Qed.
Theorem C19_cycles_refuted : forall k,
  let log := snd (optimize default_trust (1 / 1000) (1 / 1000) [0] [1] cyc_edges cyc_f cyc_g cyc_solve (fun _ _ _ => honest 0%nat [] [] []) k [0] 1) in
  List.length log = k /\ forall i e, nth_error log i = Some e -> fst e = (if Nat.even i then [0] else [1]) /\ 1 <= snd e.
Proof.
  unfold optimize.
  assert (G : forall k n s last, 1 <= s ->
    (let log := snd (loop default_trust (1 / 1000) (1 / 1000) [0] [1] cyc_edges cyc_f cyc_g cyc_solve (fun _ _ _ => honest 0%nat [] [] []) k n [0] s last) in
     List.length log = k /\ forall i e, nth_error log i = Some e -> fst e = (if Nat.even i then [0] else [1]) /\ 1 <= snd e) /\
    (let log := snd (loop default_trust (1 / 1000) (1 / 1000) [0] [1] cyc_edges cyc_f cyc_g cyc_solve (fun _ _ _ => honest 0%nat [] [] []) k n [1] s last) in
     List.length log = k /\ forall i e, nth_error log i = Some e -> fst e = (if Nat.even i then [1] else [0]) /\ 1 <= snd e)).
  { induction k as [|k IH]; intros n s last Hs; cbn [loop].
    - split; (split; [reflexivity|intros [|i] e H; discriminate]).
    - rewrite cyc_up, cyc_down by exact Hs.
      destruct (IH (S n) (s * (3 / 2)) (Some (10, [1])) ltac:(lra)) as [_ [L1 E1]].
      destruct (IH (S n) (s * (3 / 2)) (Some (0, [0])) ltac:(lra)) as [[L2 E2] _].
      destruct (loop _ _ _ _ _ _ _ _ _ _ k (S n) [1] _ _) as [r1 log1]. destruct (loop _ _ _ _ _ _ _ _ _ _ k (S n) [0] _ _) as [r2 log2].
      cbn [snd] in *. split; (split; [cbn; congruence|]); intros [|i] e H; cbn [nth_error] in H.
      + inversion H; subst. cbn. split; [reflexivity|exact Hs].
      + destruct (E1 i e H) as [A B]. split; [|exact B]. rewrite A, Nat.even_succ, <- Nat.negb_even. destruct (Nat.even i); reflexivity.
      + inversion H; subst. cbn. split; [reflexivity|exact Hs].
      + destruct (E2 i e H) as [A B]. split; [|exact B]. rewrite A, Nat.even_succ, <- Nat.negb_even. destruct (Nat.even i); reflexivity. }
  intros k. apply G. lra.
Qed.

(** ** C47, trust region part *)
(** C47: the constraint violation is zero exactly when all constraints are satisfied *)
Theorem C47_violation : forall cons value, Forall known_sense cons -> Forall (fun c => 0 < c_scale c) cons ->
  (violation (all_constraints cons value) (map con_edges cons) = 0 <-> Forall (fun c => satisfied c value) cons).
Proof.
  intros cons value Hk Hs. rewrite violation_zero. unfold all_constraints. rewrite concat_map2_nil by (rewrite !map_length; reflexivity).
  induction Hk as [|c cons Hc _ IH]; cbn [map]; [split; constructor|]. inversion Hs; subst. split.
  - intros H. inversion H; subst. constructor; [apply viol_terms_nil; auto|apply IH; auto].
  - intros H. inversion H; subst. constructor; [apply viol_terms_nil; auto|apply IH; auto].
Qed.
(** C47: but the limit SLSQP is given is the bound as written, times the scale: the units are
    ignored *)
Theorem C47_trmm_slsqp : forall c value, c_sense c = ">"%string \/ c_sense c = "<"%string -> 0 < c_scale c ->
  (slsqp_constraint c (scale_const_value c (value (c_name c))) >= 0 <->
   (c_sense c = ">"%string /\ value (c_name c) >= c_bound c * c_scale c) \/
   (c_sense c = "<"%string /\ value (c_name c) <= c_bound c * c_scale c)).
Proof. exact slsqp_sign. Qed.
Theorem C47_trmm_slsqp_refuted : exists c v, c_sense c = ">"%string /\ c_scale c = 1 /\ c_units c = 1000 /\
  ~ satisfied c (fun _ => v) /\ slsqp_constraint c (scale_const_value c v) >= 0.
Proof.
  exists {| c_name := "range"; c_sense := ">"; c_bound := 5; c_scale := 1; c_units := 1000 |}, 6. cbn.
  split; [reflexivity|]. split; [reflexivity|]. split; [reflexivity|]. split.
  - intros (H & _). cbn in H. specialize (H eq_refl). lra.
  - unfold slsqp_constraint, scale_const_value. cbn. lra.
Qed.

Print Assumptions C18_value_objective.
Print Assumptions C18_value_constraints.
Print Assumptions C18_gradient_objective.
Print Assumptions C18_gradient_constraints.
Print Assumptions C18_affine_objective.
Print Assumptions C18_affine_constraints.
Print Assumptions C19_stops.
Print Assumptions C19_radius_positive.
Print Assumptions C19_steps.
Print Assumptions C19_centres.
Print Assumptions C19_region_nonempty.
Print Assumptions C19_radius_rule.
Print Assumptions C19_returns_rejected_refuted.
Print Assumptions C19_leaves_bounds_refuted.
Print Assumptions C19_cycles_refuted.
Print Assumptions C47_violation.
Print Assumptions C47_trmm_slsqp.
Print Assumptions C47_trmm_slsqp_refuted.
