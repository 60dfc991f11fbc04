(** * Gas turbines: proofs *)
From Coq Require Import Reals Lra List Lia Psatz.
From Verif Require Import M_Opt P_Opt M_Engine S_Engine.
Import ListNotations.
Local Open Scope R_scope.

Lemma ndiv_some : forall x y, y <> 0 -> ndiv (Some x) (Some y) = Some (x / y).
Proof. intros x y H; unfold ndiv. destruct (Req_EM_T y 0); [contradiction | reflexivity]. Qed.
Lemma npow_some : forall x y, 0 < x -> npow (Some x) (Some y) = Some (Rpower x y).
Proof. intros x y H; unfold npow. replace (Rltb 0 x) with true; auto. symmetry; now apply Rltb_true. Qed.
Lemma nsqrt_some : forall x, 0 <= x -> nsqrt (Some x) = Some (sqrt x).
Proof. intros x H; unfold nsqrt. replace (Rltb x 0) with false; auto. symmetry; now apply Rltb_false. Qed.

Ltac num1 :=
  match goal with
  | |- context [ndiv (Some ?x) (Some ?y)] => rewrite (ndiv_some x y)
  | |- context [npow (Some ?x) (Some ?y)] => rewrite (npow_some x y)
  | |- context [nsqrt (Some ?x)] => rewrite (nsqrt_some x)
  end.
Ltac nops := cbn [nadd nsub nmul].
Ltac pos := repeat first
  [ assumption | lra | apply Rmult_lt_0_compat | apply Rdiv_lt_0_compat | apply exp_pos
  | apply Rinv_0_lt_compat | apply Rplus_lt_0_compat | apply sqrt_lt_R0 ].

Lemma Rpower_pos : forall x y, 0 < Rpower x y. Proof. intros; apply exp_pos. Qed.
Lemma Rpower_ge1 : forall x y, 1 <= x -> 0 <= y -> 1 <= Rpower x y.
Proof.
  intros x y H K. unfold Rpower. rewrite <- exp_0.
  destruct (Req_dec (y * ln x) 0) as [E | N]; [rewrite E; lra |].
  left. apply exp_increasing.
  assert (0 <= ln x).
  { destruct H as [H | H]; [left; rewrite <- ln_1; apply ln_increasing; lra
                            | rewrite <- H, ln_1; lra]. }
  assert (0 <= y * ln x) by (apply Rmult_le_pos; lra). lra.
Qed.
Lemma Rpower_base1 : forall y, Rpower 1 y = 1.
Proof. intros; unfold Rpower; rewrite ln_1, Rmult_0_r; apply exp_0. Qed.
Lemma Rpower_inj_base : forall x y e, 0 < x -> 0 < y -> e <> 0 ->
  Rpower x e = Rpower y e -> x = y.
Proof.
  intros x y e Hx Hy He H. apply exp_inv in H.
  apply ln_inv; auto. apply Rmult_eq_reg_l with e; auto.
Qed.
Lemma Rpower_lt_base : forall x y e, 0 < x -> x < y -> 0 < e -> Rpower x e < Rpower y e.
Proof.
  intros. apply exp_increasing. apply Rmult_lt_compat_l; auto. apply ln_increasing; auto.
Qed.
Lemma Rpower_le_base : forall x y e, 0 < x -> x <= y -> 0 <= e -> Rpower x e <= Rpower y e.
Proof.
  intros x y e Hx H He. destruct H as [H | <-]; [| lra].
  destruct He as [He | <-]; [left; apply Rpower_lt_base; auto |].
  rewrite !Rpower_O; lra.
Qed.
Lemma Rpower_le_exp : forall x e f, 1 <= x -> e <= f -> Rpower x e <= Rpower x f.
Proof.
  intros x e f H K. destruct H as [H | <-]; [| rewrite !Rpower_base1; lra].
  apply Rle_Rpower; lra.
Qed.
Lemma ln_Rpower : forall x e, ln (Rpower x e) = e * ln x.
Proof. intros; unfold Rpower; apply ln_exp. Qed.
Lemma Rpower_back : forall x e f, 0 < x -> e * f = 1 -> Rpower (Rpower x e) f = x.
Proof. intros x e f H E. rewrite Rpower_mult, E. apply Rpower_1; auto. Qed.

(** ** The components on proper inputs *)
Definition ram_T (g : R) (x : flight) : R := x_T x * (1 + (g - 1) / 2 * x_M x * x_M x).
Definition ram_P (g : R) (x : flight) : R :=
  x_p x * Rpower (1 + (g - 1) / 2 * x_M x * x_M x) (g / (g - 1)).
Lemma kM_pos : forall g M, 1 < g -> 1 <= 1 + (g - 1) / 2 * M * M.
Proof. intros g M H. assert (0 <= M * M) by nra. assert (0 <= (g-1)/2 * (M*M)) by (apply Rmult_le_pos; lra). lra. Qed.
Lemma ram_some : forall fl x g c, fluid_at fl x g c -> 1 < g ->
  ram fl x = flow_of g c (fl_R fl) (ram_T g x) (ram_P g x).
Proof.
  intros fl x g c [G C] H. unfold ram. rewrite G, C. unfold flow_of, ram_T, ram_P.
  nops. rewrite !ndiv_some by lra. nops.
  pose proof (kM_pos g (x_M x) H). rewrite npow_some by lra. reflexivity.
Qed.
Lemma compressor_some : forall q g c r T0 P0 T P, 1 < g -> 0 < co_eff q -> 0 < co_pr q ->
  compressor q (flow_of g c r T0 P0) (at_station T P)
  = let T' := T * Rpower (co_pr q) ((g - 1) / (g * co_eff q)) in
    CompO (Some T') (Some (P * co_pr q)) (Some (c * T')) (Some (c * T' - c * T)).
Proof.
  intros q g c r T0 P0 T P G E Q. unfold compressor, flow_of, at_station. cbn [s_gamma s_cp tt pt].
  nops. assert (0 < g * co_eff q) by pos. rewrite ndiv_some by lra. rewrite npow_some by auto.
  reflexivity.
Qed.
Lemma combustor_some : forall q n g c r T0 P0 T P,
  cb_eff q * cb_fuel q - c * cb_Tt4 q * n <> 0 ->
  combustor q (Some n) (flow_of g c r T0 P0) (at_station T P)
  = CombO (Some (cb_Tt4 q)) (Some (P * cb_pr q)) (Some (c * cb_Tt4 q))
      (Some ((c * cb_Tt4 q * n - c * T * n) / (cb_eff q * cb_fuel q - c * cb_Tt4 q * n))).
Proof.
  intros q n g c r T0 P0 T P H. unfold combustor, flow_of, at_station. cbn [s_gamma s_cp tt pt].
  nops. now rewrite ndiv_some by auto.
Qed.
Definition shaft (take : option num) : num := match take with Some w => w | None => Some 0 end.
Lemma turbine_some : forall q g c r T0 P0 T P al f w wf take k,
  1 < g -> 0 < c -> 0 < T -> 0 < tu_mech q -> 0 < tu_eff q -> 1 + f <> 0 ->
  shaft take = Some k ->
  let T' := T - (w + k + al * wf) / ((1 + f) * tu_mech q * c) in
  0 < T' ->
  turbine q (flow_of g c r T0 P0) (at_station T P) (Some al) (Some f) (Some w) (Some wf) take
  = TurbO (Some T') (Some (P * Rpower (T' / T) (g / ((g - 1) * tu_eff q)))) (Some (c * T')).
Proof.
  intros q g c r T0 P0 T P al f w wf take k G C HT Hm He Hf K T' HT'.
  unfold turbine, flow_of, at_station. cbn [s_gamma s_cp tt pt].
  unfold shaft in K. rewrite K.
  nops. rewrite (ndiv_some (-1)) by auto. nops.
  rewrite (ndiv_some _ (tu_mech q)) by lra. nops. rewrite (ndiv_some _ c) by lra. nops.
  replace (T + -1 / (1 + f) * 1 / tu_mech q * (w + k + al * wf) / c) with T'
    by (unfold T'; field; lra).
  rewrite (ndiv_some T' T) by lra.
  assert (0 < (g - 1) * tu_eff q) by pos. rewrite ndiv_some by lra.
  rewrite npow_some by (apply Rdiv_lt_0_compat; auto). reflexivity.
Qed.
Lemma fm_some : forall M g, 1 < g ->
  fm_id (Some M) (Some g)
  = Some (Rpower ((g + 1) / 2) ((g + 1) / (2 * (g - 1))) * M
          / Rpower (1 + (g - 1) / 2 * M * M) ((g + 1) / (2 * (g - 1)))).
Proof.
  intros M g G. unfold fm_id. nops. rewrite !ndiv_some by lra. nops.
  pose proof (kM_pos g M G).
  rewrite !npow_some by lra. nops. rewrite ndiv_some; auto.
  apply Rgt_not_eq, Rpower_pos.
Qed.

(** Mach number of a stream expanded by the pressure ratio [q] *)
Definition mach_of (g q : R) : R := sqrt ((Rpower q ((g - 1) / g) - 1) * 2 / (g - 1)).
Lemma mach_arg : forall g q, 1 < g -> 1 <= q -> 0 <= (Rpower q ((g - 1) / g) - 1) * 2 / (g - 1).
Proof.
  intros g q G Q. assert (1 <= Rpower q ((g-1)/g)).
  { apply Rpower_ge1; auto. left; apply Rdiv_lt_0_compat; lra. }
  apply Rmult_le_pos; [lra | left; apply Rinv_0_lt_compat; lra].
Qed.
Lemma mach_sq : forall g q, 1 < g -> 1 <= q ->
  1 + (g - 1) / 2 * mach_of g q * mach_of g q = Rpower q ((g - 1) / g).
Proof.
  intros g q G Q. rewrite Rmult_assoc. unfold mach_of. rewrite sqrt_sqrt by (apply mach_arg; auto).
  field; lra.
Qed.
Lemma mach_P : forall g q, 1 < g -> 1 <= q ->
  Rpower (1 + (g - 1) / 2 * mach_of g q * mach_of g q) (g / (g - 1)) = q.
Proof. intros g q G Q. rewrite mach_sq by auto. apply Rpower_back; [lra | field; lra]. Qed.
Lemma nmach_some : forall g q, 1 < g -> 1 <= q ->
  nsqrt (ndiv (nmul (nsub (npow (Some q) (ndiv (nsub (Some g) (Some 1)) (Some g))) (Some 1)) (Some 2))
              (nsub (Some g) (Some 1))) = Some (mach_of g q).
Proof.
  intros g q G Q. nops. rewrite ndiv_some by lra. rewrite npow_some by lra. nops.
  rewrite ndiv_some by lra. rewrite nsqrt_some by (apply mach_arg; auto). reflexivity.
Qed.
Lemma div_lt1 : forall a b, 0 < b -> (a / b < 1 <-> a < b).
Proof.
  intros a b H. split; intro L.
  - apply (Rmult_lt_compat_r b) in L; auto. replace (a / b * b) with a in L by (field; lra). lra.
  - apply Rmult_lt_reg_r with b; auto. replace (a / b * b) with a by (field; lra). lra.
Qed.
Lemma mach_lt1 : forall g q, 1 < g -> 1 <= q -> (mach_of g q < 1 <-> q < choking g).
Proof.
  intros g q G Q. assert (GG : 0 < (g-1)/g) by (apply Rdiv_lt_0_compat; lra).
  assert (A : mach_of g q < 1 <-> Rpower q ((g - 1) / g) < (g + 1) / 2).
  { pose proof (mach_arg g q G Q) as N. unfold mach_of. split; intro H.
    - assert (L : (Rpower q ((g - 1) / g) - 1) * 2 / (g - 1) < 1)
        by (apply sqrt_lt_0_alt; rewrite sqrt_1; exact H).
      apply (proj1 (div_lt1 _ (g - 1) ltac:(lra))) in L. lra.
    - apply Rlt_le_trans with (sqrt 1); [| rewrite sqrt_1; lra].
      apply sqrt_lt_1; try lra. apply (proj2 (div_lt1 _ (g - 1) ltac:(lra))). lra. }
  rewrite A. unfold choking.
  assert (B : (g + 1) / 2 = Rpower (Rpower ((g + 1) / 2) (g / (g - 1))) ((g - 1) / g)).
  { symmetry; apply Rpower_back; [lra | field; lra]. }
  rewrite B at 1. split; intro H.
  - destruct (Rlt_le_dec q (Rpower ((g + 1) / 2) (g / (g - 1)))) as [L | L]; auto.
    apply (Rpower_le_base _ _ ((g-1)/g)) in L; try lra. apply Rpower_pos.
  - apply Rpower_lt_base; lra.
Qed.
Lemma mach_pos : forall g q, 1 < g -> 1 <= q -> (0 < mach_of g q <-> 1 < q).
Proof.
  intros g q G Q. assert (GG : 0 < (g-1)/g) by (apply Rdiv_lt_0_compat; lra). split; intro H.
  - destruct Q as [Q | <-]; auto. exfalso. unfold mach_of in H. rewrite Rpower_base1 in H.
    replace ((1 - 1) * 2 / (g - 1)) with 0 in H by (field; lra). rewrite sqrt_0 in H. lra.
  - apply sqrt_lt_R0. apply Rdiv_lt_0_compat; [| lra].
    assert (Rpower 1 ((g-1)/g) < Rpower q ((g-1)/g)) by (apply Rpower_lt_base; lra).
    rewrite Rpower_base1 in H0. lra.
Qed.
Definition fmR (g M : R) : R :=
  Rpower ((g + 1) / 2) ((g + 1) / (2 * (g - 1))) * M
  / Rpower (1 + (g - 1) / 2 * M * M) ((g + 1) / (2 * (g - 1))).
Lemma fmR_pos : forall g M, 0 < M -> 0 < fmR g M.
Proof. intros; unfold fmR. apply Rdiv_lt_0_compat; [apply Rmult_lt_0_compat; auto|]; apply Rpower_pos. Qed.
(** the exit Mach number of a nozzle at the pressure ratio [q] *)
Definition nozzle_M (g q : R) : R :=
  if Rltb 1 q then if Rltb q (choking g) then mach_of g q else 1 else 1 / 1000.
Definition nozzle_P (g p q : R) : R := if Rltb q (choking g) then p else p * q / choking g.
Lemma choking_gt1 : forall g, 1 < g -> 1 < choking g.
Proof.
  intros g G. unfold choking.
  assert (L : Rpower 1 (g / (g - 1)) < Rpower ((g + 1) / 2) (g / (g - 1)))
    by (apply Rpower_lt_base; try lra; apply Rdiv_lt_0_compat; lra).
  rewrite Rpower_base1 in L. exact L.
Qed.
Lemma nozzle_M_range : forall g q, 1 < g -> 0 < nozzle_M g q <= 1.
Proof.
  intros g q G. unfold nozzle_M.
  destruct (Rltb 1 q) eqn:E; [apply Rltb_true in E | lra].
  destruct (Rltb q (choking g)) eqn:F; [apply Rltb_true in F | lra].
  split; [apply mach_pos; lra |]. left; apply mach_lt1; lra.
Qed.
Definition exit_p (p P1 : R) : R := if Rltb P1 p then p else P1.
Lemma exit_p_ge : forall p P1, p <= exit_p p P1 /\ P1 <= exit_p p P1.
Proof. intros; unfold exit_p. destruct (Rltb P1 p) eqn:E; [apply Rltb_true in E | apply Rltb_false in E]; lra. Qed.
Definition nozzle_T (q : nozz_p) (g T : R) : R := T * Rpower (no_pr q) ((g - 1) / g * no_eff q).
Lemma expansion_some : forall q g c r T0 P0 T P x,
  1 < g -> 0 < c -> 0 < r -> 0 < T0 -> 0 < P0 -> 0 < T -> 0 < P -> 0 < no_pr q -> 0 < x_p x ->
  let T' := nozzle_T q g T in
  let P' := exit_p (x_p x) (P * no_pr q) in
  let m := nozzle_M g (P' / x_p x) in
  let t := T' / (1 + (g - 1) / 2 * m * m) in
  let pe := nozzle_P g (x_p x) (P' / x_p x) in
  expansion q (flow_of g c r T0 P0) x (at_station T P)
  = Jet (Some T') (Some P') (Some (c * T')) (Some m) (Some t) (Some (c * t))
        (Some (sqrt (2 * (c * T' - c * t)))) (Some pe) (Some (pe / (r * t)))
        (Some (fmR g (x_M x) / fmR g m * (1 / (P' / P0)) * sqrt (T' / T0))).
Proof.
  intros q g c r T0 P0 T P x G C Rr HT0 HP0 HT HP Hpr Hp T' P' m t pe.
  unfold expansion, flow_of, at_station. cbn [s_gamma s_cp s_R s_Tt s_Pt tt pt].
  nops. rewrite (ndiv_some (g - 1) g) by lra. nops. rewrite npow_some by auto. nops.
  fold (nozzle_T q g T). fold T'.
  assert (HT' : 0 < T') by (apply Rmult_lt_0_compat; auto; apply Rpower_pos).
  assert (EP : (if nltb (Some (P * no_pr q)) (Some (x_p x)) then Some (x_p x) else Some (P * no_pr q)) = Some P').
  { unfold nltb, P', exit_p. destruct (Rltb (P * no_pr q) (x_p x)); reflexivity. }
  rewrite EP.
  assert (HP' : x_p x <= P') by apply exit_p_ge.
  set (k := P' / x_p x).
  assert (K : 1 <= k).
  { unfold k. apply Rmult_le_reg_r with (x_p x); auto. replace (P' / x_p x * x_p x) with P' by (field; lra). lra. }
  rewrite (ndiv_some P' (x_p x)) by lra. fold k.
  pose proof (nmach_some g k G K) as NM.
  change (nsub (Some g) (Some 1)) with (Some (g - 1)) in NM.
  rewrite (ndiv_some (g - 1) g) in NM by lra. rewrite NM. cbv iota beta zeta.
  set (pm := if Rltb (mach_of g k) 1 then _ else _).
  assert (PM : exists M1, pm = (Some pe, Some M1) /\ (if nleb (Some M1) (Some 0) then Some (1/1000) else Some M1) = Some m).
  { unfold pm, pe, m. fold k. unfold nozzle_P, nozzle_M.
    assert (CK := choking_gt1 g G).
    destruct (Rltb (mach_of g k) 1) eqn:E; [apply Rltb_true in E | apply Rltb_false in E].
    - apply (proj1 (mach_lt1 g k G K)) in E. replace (Rltb k (choking g)) with true by (symmetry; apply Rltb_true; auto).
      exists (mach_of g k). split; auto. unfold nleb.
      destruct (Rltb 1 k) eqn:F; [apply Rltb_true in F | apply Rltb_false in F].
      + apply (proj2 (mach_pos g k G K)) in F. replace (Rltb 0 (mach_of g k)) with true by (symmetry; apply Rltb_true; auto).
        reflexivity.
      + assert (k = 1) by lra. assert (mach_of g k = 0).
        { unfold mach_of. rewrite H, Rpower_base1. replace ((1 - 1) * 2 / (g - 1)) with 0 by (field; lra). apply sqrt_0. }
        rewrite H0. replace (Rltb 0 0) with false by (symmetry; apply Rltb_false; lra). reflexivity.
    - assert (L : choking g <= k).
      { destruct (Rlt_le_dec k (choking g)) as [L | L]; auto. apply (proj2 (mach_lt1 g k G K)) in L. lra. }
      replace (Rltb k (choking g)) with false by (symmetry; apply Rltb_false; auto).
      replace (Rltb 1 k) with true by (symmetry; apply Rltb_true; lra).
      exists 1. split.
      + nops. rewrite (ndiv_some (g - 1) 2), (ndiv_some g (g - 1)) by lra. nops.
        rewrite npow_some by lra. replace (1 + (g - 1) / 2 * 1 * 1) with ((g + 1) / 2) by field.
        fold (choking g). rewrite ndiv_some by lra. do 2 f_equal. unfold k. field. lra.
      + unfold nleb. replace (Rltb 0 1) with true by (symmetry; apply Rltb_true; lra). reflexivity. }
  destruct PM as (M1 & -> & ->). cbv iota beta zeta. nops.
  assert (Hm : 0 < m <= 1) by apply (nozzle_M_range _ _ G).
  pose proof (kM_pos g m G).
  assert (Ht : 0 < t) by (apply Rdiv_lt_0_compat; lra).
  rewrite (ndiv_some (g - 1) 2) by lra. nops. rewrite (ndiv_some T') by lra. nops. fold t.
  assert (0 < r * t) by pos. rewrite (ndiv_some pe) by lra. nops.
  assert (Tle : t <= T').
  { unfold t. apply Rmult_le_reg_r with (1 + (g - 1) / 2 * m * m); [lra |].
    replace (T' / (1 + (g - 1) / 2 * m * m) * (1 + (g - 1) / 2 * m * m)) with T' by (field; lra). nra. }
  rewrite (nsqrt_some (2 * _)) by nra.
  rewrite !fm_some by auto. fold (fmR g (x_M x)). fold (fmR g m).
  pose proof (fmR_pos g m (proj1 Hm)).
  rewrite (ndiv_some _ (fmR g m)) by lra. rewrite (ndiv_some P' P0) by lra.
  assert (0 < P' / P0) by (apply Rdiv_lt_0_compat; lra).
  rewrite (ndiv_some 1) by lra. rewrite (ndiv_some T' T0) by lra.
  rewrite nsqrt_some by (left; apply Rdiv_lt_0_compat; auto).
  reflexivity.
Qed.

(** ** What a number tells about how it was computed *)
Lemma nadd_inv : forall a b v, nadd a b = Some v -> exists x y, a = Some x /\ b = Some y /\ v = x + y.
Proof. intros [x|] [y|] v H; simpl in H; try discriminate. exists x, y. inversion H; auto. Qed.
Lemma nsub_inv : forall a b v, nsub a b = Some v -> exists x y, a = Some x /\ b = Some y /\ v = x - y.
Proof. intros [x|] [y|] v H; simpl in H; try discriminate. exists x, y. inversion H; auto. Qed.
Lemma nmul_inv : forall a b v, nmul a b = Some v -> exists x y, a = Some x /\ b = Some y /\ v = x * y.
Proof. intros [x|] [y|] v H; simpl in H; try discriminate. exists x, y. inversion H; auto. Qed.
Lemma ndiv_inv : forall a b v, ndiv a b = Some v ->
  exists x y, a = Some x /\ b = Some y /\ y <> 0 /\ v = x / y.
Proof.
  intros [x|] [y|] v H; unfold ndiv in H; try discriminate. destruct (Req_EM_T y 0); try discriminate.
  exists x, y. inversion H; auto.
Qed.
Lemma nsqrt_inv : forall a v, nsqrt a = Some v -> exists x, a = Some x /\ 0 <= x /\ v = sqrt x.
Proof.
  intros [x|] v H; unfold nsqrt in H; try discriminate.
  destruct (Rltb x 0) eqn:E; try discriminate. apply Rltb_false in E. exists x. inversion H; auto.
Qed.
Ltac ninv1 :=
  match goal with
  | H : nadd _ _ = Some _ |- _ => apply nadd_inv in H; destruct H as (? & ? & ? & ? & ?)
  | H : nsub _ _ = Some _ |- _ => apply nsub_inv in H; destruct H as (? & ? & ? & ? & ?)
  | H : nmul _ _ = Some _ |- _ => apply nmul_inv in H; destruct H as (? & ? & ? & ? & ?)
  | H : ndiv _ _ = Some _ |- _ => apply ndiv_inv in H; destruct H as (? & ? & ? & ? & ? & ?)
  | H : nsqrt _ = Some _ |- _ => apply nsqrt_inv in H; destruct H as (? & ? & ? & ?)
  | H : Some _ = Some _ |- _ => injection H as H
  | H : ?a = Some ?x, K : ?a = Some ?y |- _ => rewrite K in H; injection H as H
  end.
Ltac ninv := repeat ninv1.

(** ** The chain of the turbofan *)
Lemma combustor_balance : forall q n s i f c T, s_cp s = Some c -> tt i = Some T ->
  cb_f (combustor q (Some n) s i) = Some f ->
  cb_eff q * cb_fuel q - c * cb_Tt4 q * n <> 0 /\
  f = (c * cb_Tt4 q * n - c * T * n) / (cb_eff q * cb_fuel q - c * cb_Tt4 q * n) /\
  (n + f) * (c * cb_Tt4 q) = n * (c * T) + f * (cb_eff q * cb_fuel q) + (1 - n) * f * (c * cb_Tt4 q).
Proof.
  intros q n s i f c T C HT F. unfold combustor in F. cbn [cb_f] in F. rewrite C, HT in F.
  cbn [nmul nsub] in F. apply ndiv_inv in F. destruct F as (a & b & A & B & N & ->).
  injection A as <-. injection B as <-. repeat split; auto. field. auto.
Qed.
Lemma turbine_balance : forall q s i al f w wf take T' c T,
  s_cp s = Some c -> tt i = Some T ->
  tu_Tt (turbine q s i (Some al) (Some f) (Some w) (Some wf) take) = Some T' ->
  exists k, shaft take = Some k /\ c <> 0 /\ 1 + f <> 0 /\ tu_mech q <> 0 /\
    (1 + f) * tu_mech q * (c * (T - T')) = w + k + al * wf.
Proof.
  intros q s i al f w wf take T' c T C HT H. unfold turbine in H. cbn [tu_Tt] in H. rewrite C, HT in H.
  apply nadd_inv in H. destruct H as (x & y & A & H & ->). injection A as <-.
  apply ndiv_inv in H. destruct H as (d & c' & H & B & NC & ->). injection B as <-.
  apply nmul_inv in H. destruct H as (u & v & H & K & ->).
  apply ndiv_inv in H. destruct H as (u1 & u2 & H & B & NM & ->). injection B as <-.
  apply nmul_inv in H. destruct H as (u3 & u4 & H & B & ->). injection B as <-.
  apply ndiv_inv in H. destruct H as (u5 & u6 & A & B & N1 & ->). injection A as <-. injection B as <-.
  apply nadd_inv in K. destruct K as (k1 & k2 & K & B & ->). injection B as <-.
  apply nadd_inv in K. destruct K as (k3 & k & A & K & ->). injection A as <-.
  exists k. repeat split; auto. field. auto.
Qed.
Lemma compressor_work_inv : forall q s i w c T, s_cp s = Some c -> tt i = Some T ->
  co_work (compressor q s i) = Some w ->
  exists T', co_Tt (compressor q s i) = Some T' /\ w = c * T' - c * T.
Proof.
  intros q s i w c T C HT H. unfold compressor in *. cbn [co_work co_Tt] in *. rewrite C, HT in *.
  apply nsub_inv in H. destruct H as (a & b & A & B & ->). cbn [nmul] in B. injection B as <-.
  apply nmul_inv in A. destruct A as (c' & T' & A & B & ->). injection A as <-.
  exists T'. auto.
Qed.
Lemma turbine_works : forall q s i al f w wf take T',
  tu_Tt (turbine q s i al f w wf take) = Some T' ->
  exists a b d e, al = Some a /\ f = Some b /\ w = Some d /\ wf = Some e.
Proof.
  intros q s i al f w wf take T' H. unfold turbine in H. cbn [tu_Tt] in H.
  apply nadd_inv in H. destruct H as (x & y & A & H & ->).
  apply ndiv_inv in H. destruct H as (d & c' & H & B & NC & ->).
  apply nmul_inv in H. destruct H as (u & v & H & K & ->).
  apply ndiv_inv in H. destruct H as (u1 & u2 & H & B' & NM & ->).
  apply nmul_inv in H. destruct H as (u3 & u4 & H & B'' & ->).
  apply ndiv_inv in H. destruct H as (u5 & u6 & A' & H & N1 & ->).
  apply nadd_inv in H. destruct H as (v1 & v2 & _ & H & _).
  apply nadd_inv in K. destruct K as (k1 & k2 & K & L & ->).
  apply nadd_inv in K. destruct K as (k3 & k & K & _ & ->).
  apply nmul_inv in L. destruct L as (l1 & l2 & L & L' & ->).
  exists l1, v2, k3, l2. auto.
Qed.
Lemma jet_energy : forall q s x i u, j_u (expansion q s x i) = Some u ->
  exists h ht, j_h (expansion q s x i) = Some h /\ j_ht (expansion q s x i) = Some ht /\
    0 <= u /\ h + u * u / 2 = ht.
Proof.
  intros q s x i u H. unfold expansion in *.
  destruct (match nsqrt _ with Some _ => _ | None => _ end) as [P_out Mach].
  cbn [j_u j_h j_ht] in *.
  apply nsqrt_inv in H. destruct H as (v & H & N & ->).
  apply nmul_inv in H. destruct H as (two & d & A & H & ->). injection A as <-.
  apply nsub_inv in H. destruct H as (ht & h & A & B & ->).
  exists h, ht. repeat split; auto. apply sqrt_pos. rewrite sqrt_sqrt by lra. field.
Qed.

Lemma first_law : forall sizing e x f T5 T2 c, let cy := cycle_of sizing e x in
  s_cp (c_stream cy) = Some c -> cb_f (c_comb cy) = Some f ->
  j_Tt (c_inlet cy) = Some T2 -> tu_Tt (c_lpt cy) = Some T5 ->
  exists T45 Tf k,
    tu_Tt (c_hpt cy) = Some T45 /\ co_Tt (c_fan cy) = Some Tf /\ shaft (c_taken cy) = Some k /\
    (1 + f) * (c * T5) + e_bypass e * (c * Tf) + k
      + (1 + f) * ((1 - tu_mech (e_hpt e)) * (c * (cb_Tt4 (e_comb e) - T45))
                   + (1 - tu_mech (e_lpt e)) * (c * (T45 - T5)))
    = (1 + e_bypass e) * (c * T2) + f * (cb_eff (e_comb e) * cb_fuel (e_comb e)).
Proof.
  intros sizing e x f T5 T2 c cy C F I L. unfold cy in *.
  unfold cycle_of in *. cbv zeta in *. cbn [c_stream c_comb c_inlet c_lpt c_hpt c_fan c_taken] in *.
  set (s := ram (e_fluid e) x) in *. set (i := inlet (e_inlet e) s x (ram_out s)) in *.
  set (lpc := compressor (e_lpc e) s (jet_out i)) in *.
  set (hpc := compressor (e_hpc e) s (comp_out lpc)) in *.
  set (fan := compressor (e_fan e) s (jet_out i)) in *.
  set (cb := combustor (e_comb e) (Some 1) s (comp_out hpc)) in *.
  rewrite F in *.
  destruct (turbine_works _ _ _ _ _ _ _ _ _ L) as (b' & f' & wl & wf & EB & EF & WL & WF).
  injection EB as <-. injection EF as <-. rewrite WL, WF in *.
  set (hpt := turbine (e_hpt e) s (comb_out cb) (Some 0) (Some f) (co_work hpc) (Some wf) None) in *.
  destruct (tu_Tt hpt) as [T45|] eqn:H45.
  2:{ exfalso. unfold turbine in L. cbn [tu_Tt turb_out tt] in L. rewrite H45 in L. discriminate. }
  pose proof H45 as W. unfold hpt in W.
  destruct (turbine_works _ _ _ _ _ _ _ _ _ W) as (b'' & f'' & wh & wf' & _ & _ & WH & _).
  rewrite WH in W.
  destruct (compressor_work_inv _ _ (jet_out i) _ c T2 C I WL) as (TL & HL & EL).
  destruct (compressor_work_inv _ _ (jet_out i) _ c T2 C I WF) as (Tf & HF & EFf).
  destruct (compressor_work_inv _ _ (comp_out lpc) _ c TL C HL WH) as (TH & HH & EH).
  destruct (combustor_balance _ _ _ (comp_out hpc) _ _ _ C HH F) as (_ & _ & CB).
  destruct (turbine_balance _ _ (comb_out cb) _ _ _ _ _ _ _ (cb_Tt4 (e_comb e)) C eq_refl W)
    as (k0 & K0 & NC & N1 & NM & B1). cbn [shaft] in K0. injection K0 as <-.
  destruct (turbine_balance _ _ (turb_out hpt) _ _ _ _ _ _ _ T45 C H45 L)
    as (k & K & _ & _ & NM2 & B2).
  exists T45, Tf, k. repeat split; auto.
  rewrite EL, EFf in B2. rewrite EH in B1. nra.
Qed.

(** ** Mass flow and Mach number *)
Definition Bof (g M : R) : R := 1 + (g - 1) / 2 * M * M.
Lemma sqrt_Rpower : forall x, 0 < x -> sqrt x = Rpower x (/ 2).
Proof. intros; symmetry; apply Rpower_sqrt; auto. Qed.
Lemma flux_fm : forall g r Tt Pt M, 1 < g -> 0 < r -> 0 < Tt -> 0 < Pt -> 0 <= M ->
  flux g r (Tt / Bof g M) (Pt / Rpower (Bof g M) (g / (g - 1))) M
  = Pt / sqrt Tt * sqrt (g / r) / Rpower ((g + 1) / 2) ((g + 1) / (2 * (g - 1))) * fmR g M.
Proof.
  intros g r Tt Pt M G Hr HT HP HM. unfold flux, density, speed, sound, fmR.
  fold (Bof g M). set (B := Bof g M). assert (HB : 0 < B) by (pose proof (kM_pos g M G); unfold B, Bof; lra).
  set (C := Rpower ((g + 1) / 2) _). assert (HC : 0 < C) by apply Rpower_pos.
  replace (g * r * (Tt / B)) with ((g / r) * (r * r) * (Tt / B)) by (field; lra).
  assert (0 < g / r) by pos. assert (0 < Tt / B) by pos.
  rewrite (sqrt_mult (g / r * (r * r)) (Tt / B)), (sqrt_mult (g / r) (r * r)) by nra. rewrite sqrt_square by lra.
  rewrite (sqrt_div Tt B) by lra.
  assert (SB : sqrt B = Rpower B (/ 2)) by (apply sqrt_Rpower; auto).
  assert (E : Rpower B (g / (g - 1)) * Rpower B (/ 2) = B * Rpower B ((g + 1) / (2 * (g - 1)))).
  { rewrite <- (Rpower_1 B) at 3 by auto. rewrite <- !Rpower_plus. f_equal. field. lra. }
  rewrite SB. set (X := Rpower B (g / (g - 1))) in *. set (Y := Rpower B (/ 2)) in *.
  set (Z := Rpower B ((g + 1) / (2 * (g - 1)))) in *.
  assert (0 < X) by apply Rpower_pos. assert (0 < Y) by apply Rpower_pos.
  assert (0 < Z) by apply Rpower_pos. assert (0 < sqrt Tt) by (apply sqrt_lt_R0; auto).
  assert (ST : sqrt Tt * sqrt Tt = Tt) by (apply sqrt_sqrt; lra).
  assert (XE : X = B * Z / Y) by (apply Rmult_eq_reg_r with Y; [rewrite E; field; lra | lra]).
  rewrite XE. rewrite <- ST at 1. field. repeat split; lra.
Qed.

Lemma ln_fm : forall g M, 1 < g -> 0 < M ->
  ln (fmR g M) = (g + 1) / (2 * (g - 1)) * ln ((g + 1) / 2) + ln M
                 - (g + 1) / (2 * (g - 1)) * ln (Bof g M).
Proof.
  intros g M G HM. unfold fmR. fold (Bof g M). unfold Rdiv at 1.
  rewrite ln_mult, ln_Rinv, ln_mult by (try apply Rinv_0_lt_compat; try apply Rmult_lt_0_compat; try apply Rpower_pos; auto).
  rewrite !ln_Rpower. reflexivity.
Qed.
Lemma fm_one : forall g, 1 < g -> fmR g 1 = 1.
Proof.
  intros g G. unfold fmR. replace (1 + (g - 1) / 2 * 1 * 1) with ((g + 1) / 2) by field.
  field. apply Rgt_not_eq, Rpower_pos.
Qed.
(** x - m ln B has derivative of the sign of 1 - M^2 *)
Lemma lnfm_deriv : forall g M, 1 < g -> 0 < M ->
  derivable_pt_lim (fun M => ln M - (g + 1) / (2 * (g - 1)) * ln (Bof g M)) M
    ((1 - M ^ 2) / (M * Bof g M)).
Proof.
  intros g M G HM. assert (HB : 0 < Bof g M) by (pose proof (kM_pos g M G); unfold Bof; lra).
  replace ((1 - M ^ 2) / (M * Bof g M))
    with (/ M - (g + 1) / (2 * (g - 1)) * (/ Bof g M * ((g - 1) / 2 * (2 * M)))).
  2:{ unfold Bof in *. field. repeat split; try lra; try nra. }
  apply (derivable_pt_lim_minus ln (fun M => (g + 1) / (2 * (g - 1)) * ln (Bof g M))).
  - apply derivable_pt_lim_ln; auto.
  - apply (derivable_pt_lim_scal (fun M => ln (Bof g M))).
    apply (derivable_pt_lim_comp (Bof g) ln).
    + replace ((g - 1) / 2 * (2 * M)) with (0 + ((g - 1) / 2 * (1 * M + M * 1))) by ring.
      apply derivable_pt_lim_ext with (fun M => 1 + (g - 1) / 2 * (M * M)).
      { intro z; unfold Bof; ring. }
      apply (derivable_pt_lim_plus (fun _ => 1) (fun M => (g - 1) / 2 * (M * M))).
      * apply derivable_pt_lim_const.
      * apply (derivable_pt_lim_scal (fun M => M * M)).
        apply (derivable_pt_lim_mult id id); apply derivable_pt_lim_id.
    + apply derivable_pt_lim_ln; auto.
Qed.
(** a strict mean-value argument: a function with derivative [d] is strictly increasing where
    [d] is positive *)
Lemma mvt_lt : forall (F d : R -> R) a b, a < b ->
  (forall z, a <= z <= b -> derivable_pt_lim F z (d z)) ->
  (forall z, a < z < b -> 0 < d z) -> F a < F b.
Proof.
  intros F d a b H D Pd.
  destruct (MVT_cor2 F d a b H) as (z & E & Z).
  { intros; apply D; auto. }
  pose proof (Pd z Z). assert (0 < d z * (b - a)) by (apply Rmult_lt_0_compat; lra). lra.
Qed.
Lemma fm_up : forall g M N, 1 < g -> 0 < M -> M < N -> N <= 1 -> fmR g M < fmR g N.
Proof.
  intros g M N G HM MN N1. apply ln_lt_inv; try (apply fmR_pos; lra). rewrite !ln_fm by lra.
  assert (ln M - (g + 1) / (2 * (g - 1)) * ln (Bof g M) < ln N - (g + 1) / (2 * (g - 1)) * ln (Bof g N)); [| lra].
  apply (mvt_lt (fun M => ln M - (g + 1) / (2 * (g - 1)) * ln (Bof g M))
                (fun M => (1 - M ^ 2) / (M * Bof g M))); auto.
  - intros; apply lnfm_deriv; lra.
  - intros z Z. pose proof (kM_pos g z G). apply Rdiv_lt_0_compat; [nra |].
    apply Rmult_lt_0_compat; unfold Bof; lra.
Qed.
Lemma fm_down : forall g M N, 1 < g -> 1 <= M -> M < N -> fmR g N < fmR g M.
Proof.
  intros g M N G HM MN. apply ln_lt_inv; try (apply fmR_pos; lra). rewrite !ln_fm by lra.
  set (F := fun M => ln M - (g + 1) / (2 * (g - 1)) * ln (Bof g M)).
  assert (- F M < - F N); [| unfold F in *; lra].
  apply (mvt_lt (fun z => - F z) (fun M => - ((1 - M ^ 2) / (M * Bof g M)))); auto.
  - intros z Z. apply (derivable_pt_lim_opp F). apply lnfm_deriv; lra.
  - intros z Z. pose proof (kM_pos g z G).
    replace (- ((1 - z ^ 2) / (z * Bof g z))) with ((z ^ 2 - 1) / (z * Bof g z)).
    2:{ field. unfold Bof. repeat split; lra. }
    apply Rdiv_lt_0_compat; [nra |]. apply Rmult_lt_0_compat; unfold Bof; lra.
Qed.

(** ** Thrust *)
(** the dimensionless thrust of one stream *)
Definition nd_jet (g M u0 p0 u pe area : R) : R := g * M * M * (u / u0 - 1) + area * (pe / p0 - 1).
Lemma mdot_inv : forall q s x i m, to_mdot (thrust q s x i) = Some m ->
  exists h T P, th_mdhc q = Some h /\ ti_Tref i = Some T /\ ti_Pref i = Some P /\ T <> 0 /\
    th_Pref q <> 0 /\ 0 <= th_Tref q / T /\ m = h * sqrt (th_Tref q / T) * (P / th_Pref q).
Proof.
  intros q s x i m H. unfold thrust in H. cbn [to_mdot] in H.
  apply nmul_inv in H. destruct H as (a & b & H & K & ->).
  apply nmul_inv in H. destruct H as (h & sq & H & L & ->).
  apply nsqrt_inv in L. destruct L as (z & L & Z & ->).
  apply ndiv_inv in L. destruct L as (t1 & T & A & B & N & ->). injection A as <-.
  apply ndiv_inv in K. destruct K as (P & t2 & A & E & N' & ->). injection E as <-.
  exists h, T, P. auto 10.
Qed.
Lemma nd_inv : forall q s x i v, to_nd (thrust q s x i) = Some v ->
  exists g tc tf u9 p9 r9 u19 p19 r19,
    s_gamma s = Some g /\ ti_through_core i = Some tc /\ ti_through_fan i = Some tf /\
    j_u (ti_core i) = Some u9 /\ j_P (ti_core i) = Some p9 /\ j_area (ti_core i) = Some r9 /\
    j_u (ti_fan i) = Some u19 /\ j_P (ti_fan i) = Some p19 /\ j_area (ti_fan i) = Some r19 /\
    g * x_M x <> 0 /\ x_u x <> 0 /\ x_p x <> 0 /\
    v = 1 / (g * x_M x) * (tc * nd_jet g (x_M x) (x_u x) (x_p x) u9 p9 r9
                           + tf * nd_jet g (x_M x) (x_u x) (x_p x) u19 p19 r19).
Proof.
  intros q s x i v H. unfold thrust in H. cbn [to_nd] in H.
  destruct (s_gamma s) as [g|]; [| discriminate].
  destruct (ti_through_core i) as [tc|]; [| apply nmul_inv in H; destruct H as (? & ? & _ & H & _); discriminate].
  destruct (ti_through_fan i) as [tf|];
    [| apply nmul_inv in H; destruct H as (? & ? & _ & H & _); apply nadd_inv in H; destruct H as (? & ? & _ & H & _); discriminate].
  apply nmul_inv in H. destruct H as (v1 & v2 & G & H & ->).
  apply ndiv_inv in G. destruct G as (one & gm & A & B & NG & ->). injection A as <-. injection B as <-.
  apply nadd_inv in H. destruct H as (w1 & w2 & H1 & H2 & ->).
  assert (X : forall t o w, nmul (Some t)
    (nadd (nmul (nmul (nmul (Some g) (Some (x_M x))) (Some (x_M x))) (nsub (ndiv (j_u o) (Some (x_u x))) (Some 1)))
          (nmul (j_area o) (nsub (ndiv (j_P o) (Some (x_p x))) (Some 1)))) = Some w ->
    exists u pe r, j_u o = Some u /\ j_P o = Some pe /\ j_area o = Some r /\ x_u x <> 0 /\ x_p x <> 0 /\
      w = t * nd_jet g (x_M x) (x_u x) (x_p x) u pe r).
  { intros t o w H. apply nmul_inv in H. destruct H as (t' & z & A & H & ->). injection A as <-.
    apply nadd_inv in H. destruct H as (z1 & z2 & H & K & ->).
    apply nmul_inv in H. destruct H as (y1 & y2 & A & H & ->). injection A as <-.
    apply nsub_inv in H. destruct H as (y3 & y4 & H & B & ->). injection B as <-.
    apply ndiv_inv in H. destruct H as (u & y5 & U & B & NU & ->). injection B as <-.
    apply nmul_inv in K. destruct K as (r & y6 & AR & K & ->).
    apply nsub_inv in K. destruct K as (y7 & y8 & K & B & ->). injection B as <-.
    apply ndiv_inv in K. destruct K as (pe & y9 & PE & B & NP & ->). injection B as <-.
    exists u, pe, r. unfold nd_jet. auto 10. }
  destruct (X _ _ _ H1) as (u9 & p9 & r9 & ? & ? & ? & ? & ? & ->).
  destruct (X _ _ _ H2) as (u19 & p19 & r19 & ? & ? & ? & _ & _ & ->).
  exists g, tc, tf, u9, p9, r9, u19, p19, r19. auto 20.
Qed.
(** the thrust as a product *)
Lemma thrust_eq : forall q s x i, to_thrust (thrust q s x i)
  = nmul (nmul (nmul (nmul (nmul (to_nd (thrust q s x i)) (Some (x_a x))) (nadd (Some 1) (ti_bypass i)))
          (to_mdot (thrust q s x i))) (Some (ti_engines i))) (Some (x_throttle x)).
Proof. reflexivity. Qed.
Lemma fuel_eq : forall q s x i, to_fuel (thrust q s x i)
  = ndiv (nmul (nfmax (ndiv (nmul (to_thrust (thrust q s x i)) (to_tsfc (thrust q s x i))) (Some (x_g x))) (Some 0)) (Some 1)) hour.
Proof. reflexivity. Qed.
Lemma tsfc_eq : forall q s x i, to_tsfc (thrust q s x i)
  = nmul (nmul (ndiv (nmul (ti_f i) (Some (x_g x)))
                     (nmul (nmul (to_nd (thrust q s x i)) (Some (x_a x))) (nadd (Some 1) (ti_bypass i))))
               (nsub (Some 1) (Some (th_sfc_adj q)))) hour.
Proof. reflexivity. Qed.
Lemma thrust_inv : forall q s x i F, to_thrust (thrust q s x i) = Some F ->
  exists v b m, to_nd (thrust q s x i) = Some v /\ ti_bypass i = Some b /\
    to_mdot (thrust q s x i) = Some m /\
    F = v * x_a x * (1 + b) * m * ti_engines i * x_throttle x.
Proof.
  intros q s x i F H. rewrite thrust_eq in H.
  destruct (to_nd (thrust q s x i)) as [v|]; [| discriminate].
  destruct (ti_bypass i) as [b|]; [| discriminate].
  destruct (to_mdot (thrust q s x i)) as [m|]; [| discriminate].
  cbn [nmul nadd] in H. injection H as <-. exists v, b, m. auto.
Qed.
Lemma momentum : forall q s x i g b F, s_gamma s = Some g -> ti_bypass i = Some b -> 1 + b <> 0 ->
  ti_through_core i = Some (1 / (1 + b)) -> ti_through_fan i = Some (b / (1 + b)) ->
  x_u x = x_M x * x_a x -> to_thrust (thrust q s x i) = Some F ->
  exists m u9 p9 r9 u19 p19 r19,
    to_mdot (thrust q s x i) = Some m /\
    j_u (ti_core i) = Some u9 /\ j_P (ti_core i) = Some p9 /\ j_area (ti_core i) = Some r9 /\
    j_u (ti_fan i) = Some u19 /\ j_P (ti_fan i) = Some p19 /\ j_area (ti_fan i) = Some r19 /\
    forall A0, g * x_p x / (x_a x) ^ 2 * x_u x * A0 = m ->
    F = ti_engines i * x_throttle x *
        ((m * (u9 - x_u x) + (p9 - x_p x) * (r9 * A0))
         + (b * m * (u19 - x_u x) + (p19 - x_p x) * (r19 * (b * A0)))).
Proof.
  intros q s x i g b F G B NB TC TF U H.
  destruct (thrust_inv _ _ _ _ _ H) as (v & b' & m & V & B' & M & EF).
  rewrite B in B'. injection B' as <-.
  destruct (nd_inv _ _ _ _ _ V) as (g' & tc & tf & u9 & p9 & r9 & u19 & p19 & r19 & G' & TC' & TF' & h1 & h2 & h3 & h4 & h5 & h6 & NG & NU & NP & EV).
  rewrite G in G'. injection G' as <-. rewrite TC in TC'. injection TC' as <-. rewrite TF in TF'. injection TF' as <-.
  exists m, u9, p9, r9, u19, p19, r19. repeat split; auto. intros A0 HA.
  assert (g <> 0 /\ x_M x <> 0) as [Ng NM] by (split; intro Z; rewrite Z in NG; apply NG; ring).
  assert (Na : x_a x <> 0) by (intro Z; rewrite Z in U; apply NU; rewrite U; ring).
  rewrite EF, EV. unfold nd_jet. rewrite <- HA. rewrite U. field. auto.
Qed.
Lemma fuel_flow : forall q s x i F f m, to_thrust (thrust q s x i) = Some F -> F <> 0 -> x_g x <> 0 ->
  ti_f i = Some f -> to_mdot (thrust q s x i) = Some m ->
  to_fuel (thrust q s x i)
  = Some (Rmax (f * m * ti_engines i * x_throttle x * (1 - th_sfc_adj q)) 0).
Proof.
  intros q s x i F f m H NF NG HF M.
  destruct (thrust_inv _ _ _ _ _ H) as (v & b & m' & V & B & M' & EF).
  rewrite M in M'. injection M' as <-.
  rewrite fuel_eq, tsfc_eq, H, V, B, HF. unfold hour. cbn [nmul nadd nsub].
  assert (ND : v * x_a x * (1 + b) <> 0).
  { intro Z. apply NF. rewrite EF, Z. ring. }
  rewrite (ndiv_some _ (v * x_a x * (1 + b))) by auto. cbn [nmul]. rewrite ndiv_some by auto.
  cbn [nfmax nmul]. rewrite ndiv_some by lra. f_equal.
  replace (F * (f * x_g x / (v * x_a x * (1 + b)) * (1 - th_sfc_adj q) * 3600) / x_g x)
    with (3600 * (f * m * ti_engines i * x_throttle x * (1 - th_sfc_adj q))).
  2:{ rewrite EF. field. repeat split; first [exact NG | intro Z; apply ND; rewrite Z; ring]. }
  set (y := f * m * ti_engines i * x_throttle x * (1 - th_sfc_adj q)).
  assert (E : Rmax (3600 * y) 0 = 3600 * Rmax y 0).
  { rewrite <- RmaxRmult by lra. f_equal. ring. }
  rewrite E. field.
Qed.
Lemma fuel_lost : forall q s x i, to_thrust (thrust q s x i) = None ->
  to_fuel (thrust q s x i) = Some 0.
Proof.
  intros q s x i H. rewrite fuel_eq, H.
  change (ndiv (nmul (Some 0) (Some 1)) (Some 3600) = Some 0). cbn [nmul].
  rewrite ndiv_some by lra. f_equal. field.
Qed.
Lemma ram_throttle : forall fl x t, ram fl (at_throttle t x) = ram fl x.
Proof. intros; unfold ram, at_throttle; cbn [x_p x_T x_M]; reflexivity. Qed.
Lemma inlet_throttle : forall q s x i t, inlet q s (at_throttle t x) i = inlet q s x i.
Proof. intros; unfold inlet, at_throttle; cbn [x_p x_M]; reflexivity. Qed.
Lemma expansion_throttle : forall q s x i t, expansion q s (at_throttle t x) i = expansion q s x i.
Proof. intros; unfold expansion, at_throttle; cbn [x_p x_M]; reflexivity. Qed.
Lemma cycle_throttle : forall z e x t, cycle_of z e (at_throttle t x) = cycle_of z e x.
Proof.
  intros; unfold cycle_of; cbv zeta. rewrite ram_throttle, !inlet_throttle, !expansion_throttle. reflexivity.
Qed.

(** ** Sizing *)
Lemma nd_mdhc : forall q q' s x i, to_nd (thrust q s x i) = to_nd (thrust q' s x i).
Proof. intros; unfold thrust; cbn [to_nd]; reflexivity. Qed.
Lemma size_hits : forall q s x i v b T P, x_throttle x = 1 ->
  to_nd (thrust q s x i) = Some v -> ti_bypass i = Some b ->
  v * x_a x * (1 + b) * ti_engines i <> 0 ->
  ti_Tref i = Some T -> ti_Pref i = Some P -> T <> 0 -> P <> 0 -> 0 < th_Tref q / T -> th_Pref q <> 0 ->
  exists m, th_flow (size_thrust q s x i) = Some m /\
    to_mdot (thrust (size_thrust q s x i) s x i) = Some m /\
    to_thrust (thrust (size_thrust q s x i) s x i) = Some (th_design q) /\
    m = th_design q / (v * x_a x * (1 + b) * ti_engines i).
Proof.
  intros q s x i v b T P HT V B ND ET EP PT PP QT QP.
  set (m := th_design q / (v * x_a x * (1 + b) * ti_engines i)).
  assert (ST : 0 < sqrt (th_Tref q / T)) by (apply sqrt_lt_R0; auto).
  assert (SP : P / th_Pref q <> 0).
  { unfold Rdiv. apply Rmult_integral_contrapositive_currified; auto. apply Rinv_neq_0_compat; auto. }
  assert (EQ : size_thrust q s x i = ThrustP (th_Tref q) (th_Pref q)
    (Some (m / (sqrt (th_Tref q / T) * (P / th_Pref q)))) (th_sfc_adj q) (th_design q) (Some m)).
  { unfold size_thrust. rewrite V, B, ET, EP. cbn [nmul nadd].
    rewrite (ndiv_some (th_design q)) by (rewrite Rmult_1_r; auto).
    rewrite (ndiv_some (th_Tref q)), (ndiv_some P) by auto. rewrite nsqrt_some by (left; auto).
    cbn [nmul]. rewrite ndiv_some by (apply Rmult_integral_contrapositive_currified; auto; lra).
    unfold m. rewrite !Rmult_1_r. reflexivity. }
  assert (EM : to_mdot (thrust (size_thrust q s x i) s x i) = Some m).
  { rewrite EQ. unfold thrust. cbn [to_mdot th_mdhc th_Tref th_Pref]. rewrite ET, EP.
    rewrite (ndiv_some (th_Tref q)), (ndiv_some P) by auto. rewrite nsqrt_some by (left; auto).
    cbn [nmul]. f_equal. field. repeat split; auto; lra. }
  exists m. repeat split; auto.
  - rewrite EQ. reflexivity.
  - rewrite thrust_eq, (nd_mdhc _ q), V, B, EM, HT. cbn [nmul nadd]. f_equal. unfold m. field.
    repeat split; intro Z; apply ND; rewrite Z; ring.
Qed.
Lemma cycle_sized : forall e x q, e_take e = None ->
  cycle_of false (with_thrust e q) x = cycle_of true e x.
Proof.
  intros e x q H. unfold cycle_of, with_thrust.
  cbn [e_fluid e_inlet e_lpc e_hpc e_fan e_comb e_hpt e_lpt e_core e_fann e_thrust e_bypass e_engines e_take e_kept].
  rewrite H. reflexivity.
Qed.

Lemma ram_pos : forall x g, flying x -> 1 < g -> 0 < ram_T g x /\ 0 < ram_P g x.
Proof.
  intros x g [A B C] G. pose proof (kM_pos g (x_M x) G). unfold ram_T, ram_P.
  split; apply Rmult_lt_0_compat; auto; try lra. apply Rpower_pos.
Qed.
Lemma behind_pos : forall q g T, 0 < T -> 0 < behind q g T.
Proof. intros; unfold behind; apply Rmult_lt_0_compat; auto; apply Rpower_pos. Qed.

Lemma cycle_runs : forall z e x g c T2 P2 k, let cy := cycle_of z e x in
  proper e -> flying x -> fluid_at (e_fluid e) x g c -> 1 < g -> 0 < c ->
  j_Tt (c_inlet cy) = Some T2 -> j_Pt (c_inlet cy) = Some P2 -> 0 < T2 -> 0 < P2 ->
  shaft (c_taken cy) = Some k ->
  let Tl := behind (e_lpc e) g T2 in let T3 := behind (e_hpc e) g Tl in
  let Tf := behind (e_fan e) g T2 in let T4 := cb_Tt4 (e_comb e) in
  T3 <= T4 -> c * T4 < cb_eff (e_comb e) * cb_fuel (e_comb e) ->
  let f := c * (T4 - T3) / (cb_eff (e_comb e) * cb_fuel (e_comb e) - c * T4) in
  let T45 := T4 - c * (T3 - Tl) / ((1 + f) * tu_mech (e_hpt e) * c) in
  let T5 := T45 - (c * (Tl - T2) + k + e_bypass e * (c * (Tf - T2)))
                  / ((1 + f) * tu_mech (e_lpt e) * c) in
  0 < T45 -> 0 < T5 ->
  exists P45 P5, 0 <= f /\ 0 < P45 /\ 0 < P5 /\
    cb_f (c_comb cy) = Some f /\
    comp_out (c_lpc cy) = at_station Tl (P2 * co_pr (e_lpc e)) /\
    comp_out (c_hpc cy) = at_station T3 (P2 * co_pr (e_lpc e) * co_pr (e_hpc e)) /\
    comp_out (c_fan cy) = at_station Tf (P2 * co_pr (e_fan e)) /\
    turb_out (c_hpt cy) = at_station T45 P45 /\ turb_out (c_lpt cy) = at_station T5 P5 /\
    c_stream cy = flow_of g c (fl_R (e_fluid e)) (ram_T g x) (ram_P g x) /\
    c_core cy = expansion (e_core e) (c_stream cy) x (at_station T5 P5) /\
    c_fann cy = expansion (e_fann e) (c_stream cy) x (at_station Tf (P2 * co_pr (e_fan e))).
Proof.
  intros z e x g c T2 P2 k cy PR FY FA G C I1 I2 HT2 HP2 K Tl T3 Tf T4 H34 HF f T45 T5 H45 H5.
  pose proof (ram_some _ _ _ _ FA G) as RS.
  assert (Hf : 0 <= f).
  { unfold f. apply Rmult_le_pos; [apply Rmult_le_pos; lra | left; apply Rinv_0_lt_compat; lra]. }
  assert (HTl : 0 < Tl) by (apply behind_pos; auto).
  assert (HT3 : 0 < T3) by (apply behind_pos; auto).
  assert (HTf : 0 < Tf) by (apply behind_pos; auto).
  destruct PR as [[A1 A2] [A3 A4] [A5 A6] [A7 A8] [A9 A10] [A11 A12] A13 A14 A15].
  unfold cy, cycle_of in *. cbv zeta in *.
  cbn [c_stream c_comb c_inlet c_lpc c_hpc c_lpt c_hpt c_fan c_taken c_core c_fann] in *.
  rewrite RS in *.
  set (s := flow_of g c (fl_R (e_fluid e)) (ram_T g x) (ram_P g x)) in *.
  set (i := inlet (e_inlet e) s x (ram_out s)) in *.
  assert (EI : jet_out i = at_station T2 P2) by (unfold jet_out, at_station; now rewrite I1, I2).
  match goal with K : shaft ?t = Some k |- _ => set (tk := t) in *; clearbody tk end.
  rewrite EI. unfold s.
  rewrite !(compressor_some (e_lpc e)) by auto. rewrite !(compressor_some (e_fan e)) by auto.
  cbv zeta. cbn [comp_out co_Tt co_Pt co_work]. fold (behind (e_lpc e) g T2). fold Tl.
  fold (behind (e_fan e) g T2). fold Tf. unfold comp_out. cbn [co_Tt co_Pt co_work].
  fold (at_station Tl (P2 * co_pr (e_lpc e))).
  rewrite !(compressor_some (e_hpc e)) by auto. cbv zeta. cbn [co_Tt co_Pt co_work].
  fold (behind (e_hpc e) g Tl). fold T3.
  fold (at_station T3 (P2 * co_pr (e_lpc e) * co_pr (e_hpc e))).
  rewrite !combustor_some by (fold T4; lra). cbn [cb_f]. unfold comb_out. cbn [cb_Tt cb_Pt].
  fold T4. rewrite !Rmult_1_r.
  replace ((c * T4 - c * T3) / (cb_eff (e_comb e) * cb_fuel (e_comb e) - c * T4)) with f
    by (unfold f; f_equal; ring).
  fold (at_station T4 (P2 * co_pr (e_lpc e) * co_pr (e_hpc e) * cb_pr (e_comb e))).
  set (P4 := P2 * co_pr (e_lpc e) * co_pr (e_hpc e) * cb_pr (e_comb e)).
  assert (HP4 : 0 < P4) by (unfold P4; pos).
  assert (E45 : T4 - (c * T3 - c * Tl + 0 + 0 * (c * Tf - c * T2)) / ((1 + f) * tu_mech (e_hpt e) * c) = T45)
    by (unfold T45; f_equal; f_equal; ring).
  assert (EH : turbine (e_hpt e) (flow_of g c (fl_R (e_fluid e)) (ram_T g x) (ram_P g x)) (at_station T4 P4)
     (Some 0) (Some f) (Some (c * T3 - c * Tl)) (Some (c * Tf - c * T2)) None
     = TurbO (Some T45) (Some (P4 * Rpower (T45 / T4) (g / ((g - 1) * tu_eff (e_hpt e))))) (Some (c * T45))).
  { rewrite <- E45 in H45 |- *. apply turbine_some with (k := 0); auto; lra. }
  rewrite EH. unfold turb_out. cbn [tu_Tt tu_Pt].
  set (P45 := P4 * Rpower (T45 / T4) (g / ((g - 1) * tu_eff (e_hpt e)))).
  assert (HP45 : 0 < P45) by (apply Rmult_lt_0_compat; auto; apply Rpower_pos).
  fold (at_station T45 P45).
  assert (E5 : T45 - (c * Tl - c * T2 + k + e_bypass e * (c * Tf - c * T2)) / ((1 + f) * tu_mech (e_lpt e) * c) = T5)
    by (unfold T5; f_equal; f_equal; ring).
  match goal with |- context [turbine (e_lpt e) ?s ?i ?a ?b ?d ?w ?t] =>
    assert (EL : turbine (e_lpt e) s i a b d w t
     = TurbO (Some T5) (Some (P45 * Rpower (T5 / T45) (g / ((g - 1) * tu_eff (e_lpt e))))) (Some (c * T5)))
  end.
  { rewrite <- E5 in H5 |- *. apply turbine_some; auto; lra. }
  rewrite EL. cbn [tu_Tt tu_Pt].
  exists P45, (P45 * Rpower (T5 / T45) (g / ((g - 1) * tu_eff (e_lpt e)))).
  repeat split; auto.
  apply Rmult_lt_0_compat; auto. apply Rpower_pos.
Qed.

(** ** Inlets *)
Definition inlet_T (q : inlet_p) (g T : R) : R := T * Rpower (in_pr q * in_rec q) ((g - 1) / (g * in_eff q)).
Lemma inlet_some : forall q g c r T0 P0 T P x, 1 < g -> 0 < c -> 0 < in_pr q -> 0 < in_rec q -> 0 < in_eff q ->
  in_comp q = false -> 0 < x_p x -> 0 < T ->
  let T' := inlet_T q g T in
  let P' := exit_p (x_p x) (P * in_pr q * in_rec q) in
  let m := mach_of g (P' / x_p x) in
  let t := T' / (1 + (g - 1) / 2 * m * m) in
  inlet q (flow_of g c r T0 P0) x (at_station T P)
  = Jet (Some T') (Some P') (Some (c * T')) (Some m) (Some t) (Some (c * t))
        (Some (sqrt (2 * (c * T' - c * t)))) None None None.
Proof.
  intros q g c r T0 P0 T P x G C H1 H2 H3 CF HP HT T' P' m t.
  unfold inlet, flow_of, at_station. cbn [s_gamma s_cp tt pt]. rewrite CF. nops.
  assert (0 < g * in_eff q) by pos. rewrite (ndiv_some (g - 1)) by lra.
  assert (0 < in_pr q * in_rec q) by pos. rewrite npow_some by auto. nops.
  fold (inlet_T q g T). fold T'.
  assert (HT' : 0 < T') by (apply Rmult_lt_0_compat; auto; apply Rpower_pos).
  assert (EP : (if nltb (Some (P * in_pr q * in_rec q)) (Some (x_p x)) then Some (x_p x) else Some (P * in_pr q * in_rec q)) = Some P').
  { unfold nltb, P', exit_p. destruct (Rltb _ _); reflexivity. }
  rewrite EP. assert (HP' : x_p x <= P') by apply exit_p_ge.
  rewrite (ndiv_some P' (x_p x)) by lra. set (k := P' / x_p x) in *.
  assert (K : 1 <= k).
  { unfold k. apply Rmult_le_reg_r with (x_p x); auto. replace (P' / x_p x * x_p x) with P' by (field; lra). lra. }
  pose proof (nmach_some g k G K) as NM. change (nsub (Some g) (Some 1)) with (Some (g - 1)) in NM.
  rewrite NM. fold m. nops. rewrite (ndiv_some (g - 1) 2) by lra. nops.
  pose proof (kM_pos g m G). rewrite (ndiv_some T') by lra. nops. fold t.
  assert (Tle : t <= T').
  { unfold t. apply Rmult_le_reg_r with (1 + (g - 1) / 2 * m * m); [lra |].
    replace (T' / (1 + (g - 1) / 2 * m * m) * (1 + (g - 1) / 2 * m * m)) with T' by (field; lra). nra. }
  rewrite (nsqrt_some (2 * _)) by nra. reflexivity.
Qed.

(** the equations between the parts of a cycle *)
Record chain (z : bool) (e : turbofan) (x : flight) (cy : cycle) : Prop := {
  h_stream : c_stream cy = ram (e_fluid e) x;
  h_inlet : c_inlet cy = inlet (e_inlet e) (c_stream cy) x (ram_out (c_stream cy));
  h_lpc : c_lpc cy = compressor (e_lpc e) (c_stream cy) (jet_out (c_inlet cy));
  h_hpc : c_hpc cy = compressor (e_hpc e) (c_stream cy) (comp_out (c_lpc cy));
  h_fan : c_fan cy = compressor (e_fan e) (c_stream cy) (jet_out (c_inlet cy));
  h_comb : c_comb cy = combustor (e_comb e) (Some 1) (c_stream cy) (comp_out (c_hpc cy));
  h_taken : c_taken cy = if z then e_kept e
    else match e_take e with
         | Some t => Some (off_take t (th_mdhc (e_thrust e)) (comp_out (c_lpc cy)))
         | None => e_kept e
         end;
  h_hpt : c_hpt cy = turbine (e_hpt e) (c_stream cy) (comb_out (c_comb cy)) (Some 0) (cb_f (c_comb cy)) (co_work (c_hpc cy)) (co_work (c_fan cy)) None;
  h_lpt : c_lpt cy = turbine (e_lpt e) (c_stream cy) (turb_out (c_hpt cy)) (Some (e_bypass e)) (cb_f (c_comb cy)) (co_work (c_lpc cy)) (co_work (c_fan cy)) (c_taken cy);
  h_core : c_core cy = expansion (e_core e) (c_stream cy) x (turb_out (c_lpt cy));
  h_fann : c_fann cy = expansion (e_fann e) (c_stream cy) x (comp_out (c_fan cy));
  h_inputs : c_inputs cy = ThrustI (cb_f (c_comb cy)) (co_Tt (c_lpc cy)) (co_Pt (c_lpc cy)) (c_core cy) (c_fann cy) (e_engines e)
     (Some (e_bypass e)) (ndiv (Some 1) (nadd (Some 1) (Some (e_bypass e)))) (ndiv (Some (e_bypass e)) (nadd (Some 1) (Some (e_bypass e)))) }.
Lemma cycle_chain : forall z e x, chain z e x (cycle_of z e x).
Proof. intros z e x. unfold cycle_of. cbv zeta. constructor; cbn [c_stream c_inlet c_lpc c_hpc c_fan c_comb c_hpt c_lpt c_core c_fann c_inputs c_taken]; reflexivity. Qed.
Lemma evaluate_eq : forall e x, evaluate e x =
  NetO (to_thrust (thrust (e_thrust e) (c_stream (cycle_of false e x)) x (c_inputs (cycle_of false e x))))
       (to_fuel (thrust (e_thrust e) (c_stream (cycle_of false e x)) x (c_inputs (cycle_of false e x)))).
Proof. reflexivity. Qed.
