(** * Weight estimation: proofs *)
From Coq Require Import Reals List Bool Arith Lra Lia Psatz ZArith.
From Verif Require Import PyBase M_Opt P_Opt M_Drag P_Friction M_Stab P_Stab M_Elec S_Elec P_Elec P_Deriv M_Weight S_Weight.
Import ListNotations.
Local Open Scope R_scope.
Local Open Scope list_scope.

Lemma sum_app {A} (f : A -> R) l m : sum_over f (l ++ m) = sum_over f l + sum_over f m.
Proof. induction l as [|x l IH]; simpl; [lra|rewrite IH; lra]. Qed.
Lemma masses_app l m : masses (l ++ m) = masses l + masses m.
Proof. apply sum_app. Qed.

(** ** networks *)
Lemma nets_err m k v l e : fold_left (one_net m k v) l (Err e) = Err e.
Proof. induction l; simpl; auto. Qed.
Lemma nets_total m k v l : forall a b, fold_left (one_net m k v) l (Ok a) = Ok b ->
  a_total b - a_total a = masses (a_masses b) - masses (a_masses a).
Proof.
  induction l as [|n l IH]; intros a b; simpl.
  - intro H. injection H as <-. lra.
  - destruct (n_jet n).
    + destruct (mounted_ok n); [|rewrite nets_err; discriminate].
      match goal with |- context [let '(w, d) := ?p in _] => destruct p as [w d] end. intro H. apply IH in H. simpl in H.
      rewrite masses_app in H. unfold masses at 3 in H. simpl in H. lra.
    + intro H. apply IH in H. simpl in H. rewrite masses_app in H. unfold masses at 3 in H. simpl in H. lra.
Qed.
Lemma nets_length m k v l : forall a b, fold_left (one_net m k v) l (Ok a) = Ok b -> length (a_masses b) = (length (a_masses a) + length l)%nat.
Proof.
  induction l as [|n l IH]; intros a b; simpl.
  - intro H. injection H as <-. lia.
  - destruct (n_jet n).
    + destruct (mounted_ok n); [|rewrite nets_err; discriminate].
      match goal with |- context [let '(w, d) := ?p in _] => destruct p as [w d] end. intro H. apply IH in H. simpl in H.
      rewrite app_length in H. simpl in H. lia.
    + intro H. apply IH in H. simpl in H. rewrite app_length in H. simpl in H. lia.
Qed.

(** ** wings *)
Lemma wings_err m k t v l e : fold_left (one_wing m k t v) l (Err e) = Err e.
Proof. induction l; simpl; auto. Qed.
Lemma masses_of_app {A} (p : A -> bool) (l : list A) w ms x : length ms = length l ->
  masses_of p (l ++ [w]) (ms ++ [x]) = masses_of p l ms + (if p w then match x with Some y => y | None => 0 end else 0).
Proof.
  revert ms. induction l as [|a l IH]; intros [|m ms] H; simpl in *; try discriminate; [lra|]. rewrite IH by lia. lra.
Qed.
Definition tallied (done : list wing) (a : wings_out) : Prop :=
  length (b_masses a) = length done /\ b_main a = masses_of is_main done (b_masses a) /\ b_h a = masses_of is_h done (b_masses a)
  /\ b_v a = masses_of is_v done (b_masses a) /\ b_main a + b_h a + b_v a = masses (b_masses a).
Ltac tally L K T1 T2 T3 T4 :=
  unfold tallied; cbn [b_masses b_main b_h b_v]; rewrite !app_length, !masses_of_app, !masses_app by exact L; rewrite <- T1, <- T2, <- T3, <- T4;
  unfold is_main, is_h, is_v; rewrite K; unfold masses; cbn [sum_over length];
  (split; [lia|split; [lra|split; [lra|split; lra]]]).
Lemma wings_tallied m k t v l : forall done a b, tallied done a -> fold_left (one_wing m k t v) l (Ok a) = Ok b -> tallied (done ++ l) b.
Proof.
  induction l as [|w l IH]; intros done a b T; simpl.
  - intro H. injection H as <-. rewrite app_nil_r. exact T.
  - intro H. replace (done ++ w :: l) with ((done ++ [w]) ++ l) by (rewrite <- app_assoc; reflexivity).
    destruct T as [L [T1 [T2 [T3 T4]]]].
    destruct (w_kind w) eqn:K.
    + destruct m; try (rewrite wings_err in H; discriminate H); (eapply IH; [|exact H]; tally L K T1 T2 T3 T4).
    + eapply IH; [|exact H]; tally L K T1 T2 T3 T4.
    + eapply IH; [|exact H]; tally L K T1 T2 T3 T4.
    + eapply IH; [|exact H]; tally L K T1 T2 T3 T4.
Qed.
Lemma all_wings_tallied m k t v b : all_wings m k t v = Ok b -> tallied (v_wings v) b.
Proof.
  intro H. apply (wings_tallied m k t v (v_wings v) [] (Wings [] 0 0 0) b); [|exact H].
  unfold tallied, masses. simpl. repeat split; lra.
Qed.

(** ** fuselages *)
Lemma fuses_total (g : fuse -> R) l : forall a,
  let r := fold_left (fun a f => (fst a ++ [g f], snd a + g f)) l a in
  snd r - snd a = sum_over (fun m => m) (fst r) - sum_over (fun m => m) (fst a) /\ fst r = fst a ++ map g l.
Proof.
  induction l as [|f l IH]; intros a; simpl; [rewrite app_nil_r; split; [lra|reflexivity]|].
  destruct (IH (fst a ++ [g f], snd a + g f)) as [E1 E2]. simpl in E1, E2. rewrite sum_app in E1. simpl in E1. split; [lra|].
  rewrite E2, <- app_assoc. reflexivity.
Qed.
Lemma all_fuses_ok k t v ww wp : let r := all_fuses k t v ww wp in
  snd r = sum_over (fun m => m) (fst r) /\
  fst r = map (fun f => k_fuse k v f ww wp * (1 - t_fuse t) * (1 - opt0 (t_struct t))) (v_fuses v).
Proof. unfold all_fuses. destruct (fuses_total (fun f => k_fuse k v f ww wp * (1 - t_fuse t) * (1 - opt0 (t_struct t))) (v_fuses v) ([], 0)) as [A B].
  simpl in A, B. split; [simpl; lra|exact B]. Qed.

(** ** the statement *)
Lemma empty_weight_inv m k o v e x : empty_weight m k o v = Ok (e, x) ->
  exists a w, all_nets m k v = Ok a /\ all_wings m k (settle o) v = Ok w /\
    let t := settle o in let p := k_payload k v in let op := k_oper k v in
    let s := scale_sys (1 - opt0 (t_sys t)) (k_sys k v) in
    let fs := all_fuses k t v (b_main w) (a_total a) in
    e = statement_of w (snd fs) (k_gear k v) a s p op (v_mtow v) /\
    x = Stored (a_masses a) (b_masses w) (fst fs) (p_pax p) (p_bag p) (p_cargo p)
                  (e_ctrl e) (e_elec e) (e_avi e + e_instr e) (e_furn e) (e_ac e) (e_fuel e) (e_apu e) (e_hyd e) (o_items op)
                  (e_main_gear e) (e_nose_gear e).
Proof.
  unfold empty_weight. destruct (flops_ready m v); [|discriminate]. destruct (all_nets m k v) as [a|er] eqn:A; [|discriminate]. simpl bind.
  destruct (match m, a_data a with FLOPS_Complex, None => Err AttributeError | _, _ => Ok tt end) as [u|er]; [|discriminate]. simpl bind.
  destruct (all_wings m k (settle o) v) as [w|er] eqn:W; [|discriminate]. simpl bind. intro H. injection H as <- <-.
  exists a, w. repeat split; try reflexivity; assumption.
Qed.
Lemma settle_sys o : t_sys (settle o) = Some 0.
Proof. destruct o as [t|]; simpl; [|reflexivity]. destruct (t_struct t) as [s|]; [destruct (zero s)|]; reflexivity. Qed.
Lemma scale_one s : scale_sys 1 s = s.
Proof. destruct s. unfold scale_sys. simpl. f_equal; ring. Qed.

(** ** units and powers *)
Lemma dec_pos n d : (0 < n)%Z -> (0 <= d)%Z -> 0 < dec n d.
Proof. intros Hn Hd. unfold dec. apply Rdiv_lt_0_compat; apply IZR_lt; [exact Hn|apply Z.pow_pos_nonneg; lia]. Qed.
Lemma lb_pos : 0 < lb. Proof. unfold lb. lra. Qed.
Lemma ft_pos : 0 < ft. Proof. unfold ft, inch. lra. Qed.
Lemma lbf_pos : 0 < lbf. Proof. unfold lbf. pose proof lb_pos. lra. Qed.
Lemma ft2_pos : 0 < ft * ft. Proof. pose proof ft_pos. apply Rmult_lt_0_compat; assumption. Qed.
Lemma pw_nonneg x y : 0 <= pw x y.
Proof. unfold pw. destruct (Rltb 0 x); [left; apply exp_pos|lra]. Qed.
Lemma div_less a b c : 0 < c -> a < b -> a / c < b / c.
Proof. intros Hc H. unfold Rdiv. apply Rmult_lt_compat_r; [apply Rinv_0_lt_compat; exact Hc|exact H]. Qed.
Lemma div_leq a b c : 0 < c -> a <= b -> a / c <= b / c.
Proof. intros Hc H. unfold Rdiv. apply Rmult_le_compat_r; [left; apply Rinv_0_lt_compat; exact Hc|exact H]. Qed.
(** one big against several small: with an exponent below one the big one is lighter *)
Lemma pw_economy n x y : (2 <= n)%nat -> 0 < x -> 0 < y < 1 -> pw (INR n * x) y < INR n * pw x y.
Proof.
  intros Hn Hx Hy. assert (N : 1 < INR n) by (change 1 with (INR 1); apply lt_INR; lia).
  rewrite !pw_eq by nra. rewrite <- (Rpower_mult_distr (INR n) x y) by lra.
  apply Rmult_lt_compat_r; [apply exp_pos|]. rewrite <- (Rpower_1 (INR n)) at 2 by lra. apply Rpower_lt; lra.
Qed.
(** ** whole numbers *)
Lemma floor_bounds x : x - 1 < Rfloor x <= x.
Proof. unfold Rfloor. rewrite minus_IZR. pose proof (archimed x). lra. Qed.
Lemma floor_leq x y : x <= y -> Rfloor x <= Rfloor y.
Proof.
  intro H. destruct (floor_bounds x) as [_ B]. destruct (floor_bounds y) as [A _]. unfold Rfloor in *. apply IZR_le.
  assert (X : IZR (up x - 1) < IZR (up y - 1 + 1)) by (rewrite plus_IZR; lra). apply lt_IZR in X. lia.
Qed.
Lemma floor_least (z : Z) x : IZR z <= x -> IZR z <= Rfloor x.
Proof.
  intro H. destruct (floor_bounds x) as [A _]. unfold Rfloor in *. apply IZR_le.
  assert (X : IZR z < IZR (up x - 1 + 1)) by (rewrite plus_IZR; lra). apply lt_IZR in X. lia.
Qed.
