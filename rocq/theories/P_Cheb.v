(** * Proofs about the discretisation of time *)
From Coq Require Import Reals List Bool Lra Lia ZArith.
From Verif Require Import M_Mission M_Cheb S_Cheb P_Mission.
Import ListNotations.
Local Open Scope R_scope.
Local Open Scope list_scope.

(** ** Sums *)
Lemma Sum_split_first : forall n f, Sum (S n) f = f 0%nat + Sum n (fun k => f (S k)).
Proof. induction n as [|n IH]; intro f; [cbn; ring|]. change (Sum (S n) f + f (S n) = f 0%nat + (Sum n (fun k => f (S k)) + f (S n))). rewrite IH. ring. Qed.
Lemma Sum_swap : forall n m (f : nat -> nat -> R), Sum n (fun i => Sum m (fun j => f i j)) = Sum m (fun j => Sum n (fun i => f i j)).
Proof.
  induction n as [|n IH]; intros m f; cbn.
  - symmetry. apply Sum_zero. reflexivity.
  - rewrite IH, <- Sum_plus. reflexivity.
Qed.
Lemma Sum_one : forall n (f : nat -> R) i, (i < n)%nat -> (forall j, (j < n)%nat -> j <> i -> f j = 0) -> Sum n f = f i.
Proof.
  induction n as [|n IH]; intros f i Hi H; [lia|]. cbn. destruct (Nat.eq_dec i n) as [-> | Ne].
  - rewrite Sum_zero; [ring|]. intros j Hj. apply H; lia.
  - rewrite (IH f i); [|lia|intros; apply H; lia]. rewrite (H n); [ring|lia|lia].
Qed.
Lemma Sum_but : forall n (f : nat -> R) i, (i < n)%nat -> Sum n f = f i + Sum n (fun j => if Nat.eqb j i then 0 else f j).
Proof.
  intros n f i Hi. rewrite (Sum_ext n f (fun j => (if Nat.eqb j i then f i else 0) + (if Nat.eqb j i then 0 else f j))).
  - rewrite Sum_plus. f_equal. rewrite (Sum_one n _ i Hi); [now rewrite Nat.eqb_refl|].
    intros j _ Hj. apply Nat.eqb_neq in Hj. now rewrite Hj.
  - intros j _. destruct (Nat.eqb_spec j i); subst; ring.
Qed.
Lemma Sum_minus : forall n f g, Sum n (fun j => f j - g j) = Sum n f - Sum n g.
Proof. induction n as [|n IH]; intros f g; cbn; [ring|rewrite IH; ring]. Qed.
Lemma Sum_mult_r : forall n a f, Sum n (fun j => f j * a) = Sum n f * a.
Proof. induction n as [|n IH]; intros a f; cbn; [ring|rewrite IH; ring]. Qed.

(** ** The functional that vanishes on polynomials of low degree *)
Definition halved (N : nat) (j : nat) : R := 1 / weights N j.
Definition moment (N : nat) (f : nat -> R) : R := Sum N (fun j => halved N j * f j).
Lemma sign_sq : forall j, (-1) ^ j * (-1) ^ j = 1.
Proof. induction j as [|j IH]; cbn; [ring|]. replace (-1 * (-1) ^ j * (-1 * (-1) ^ j)) with ((-1) ^ j * (-1) ^ j) by ring. exact IH. Qed.
Lemma sign_neq : forall j, (-1) ^ j <> 0.
Proof. intros j H. pose proof (sign_sq j) as E. rewrite H in E. lra. Qed.
Lemma weights_neq : forall N j, weights N j <> 0.
Proof. intros N j. unfold weights. apply Rmult_integral_contrapositive. split; [destruct (_ || _); lra|apply sign_neq]. Qed.
Lemma sign_inv : forall j, 1 / (-1) ^ j = (-1) ^ j.
Proof. intro j. apply Rmult_eq_reg_r with ((-1) ^ j); [|apply sign_neq]. rewrite sign_sq. field. apply sign_neq. Qed.

(** partial sums with halved ends *)
Fixpoint trap (f : nat -> R) (m : nat) : R :=
  match m with O => 0 | S k => trap f k + 1 / 2 * (f k + f (S k)) end.
Lemma trap_sum : forall f m, trap f m + 1 / 2 * (f 0%nat + f m) = Sum (S m) f.
Proof. intros f m. induction m as [|m IH]; cbn [trap Sum]; [lra|]. cbn [Sum] in IH. lra. Qed.
Lemma moment_trap : forall n f, (1 <= n)%nat -> moment (S n) f = trap (fun j => (-1) ^ j * f j) n.
Proof.
  intros n f Hn. unfold moment.
  rewrite (Sum_ext _ _ (fun j => (-1) ^ j * f j - (if Nat.eqb j 0 then 1 / 2 * ((-1) ^ 0 * f 0%nat) else 0)
     - (if Nat.eqb j n then 1 / 2 * ((-1) ^ n * f n) else 0))).
  - rewrite !Sum_minus. rewrite <- trap_sum.
    rewrite (Sum_one (S n) (fun j => if Nat.eqb j 0 then _ else _) 0); [|lia|].
    rewrite (Sum_one (S n) (fun j => if Nat.eqb j n then _ else _) n); [|lia|].
    + rewrite !Nat.eqb_refl. ring.
    + intros j _ Hj. apply Nat.eqb_neq in Hj. now rewrite Hj.
    + intros j _ Hj. apply Nat.eqb_neq in Hj. now rewrite Hj.
  - intros j Hj. unfold halved, weights. replace (S n - 1)%nat with n by lia.
    assert (W : forall a, a <> 0 -> 1 / (a * (-1) ^ j) = 1 / a * (-1) ^ j).
    { intros a Ha. rewrite <- (sign_inv j) at 2. field. split; [apply sign_neq|exact Ha]. }
    destruct (Nat.eqb_spec j 0) as [E0 | H0]; destruct (Nat.eqb_spec j n) as [E1 | H1]; try lia; cbn [orb];
      rewrite W by lra; rewrite <- ?E0, <- ?E1; field.
Qed.
Lemma half_angle : forall a b, cos a - cos b = 2 * sin ((a + b) / 2) * sin ((b - a) / 2).
Proof.
  intros a b. set (u := (a + b) / 2). set (v := (b - a) / 2).
  replace a with (u - v) by (unfold u, v; lra). replace b with (u + v) by (unfold u, v; lra).
  rewrite cos_minus, cos_plus. ring.
Qed.
Lemma half_angle_sin : forall a b, sin a + sin b = 2 * sin ((a + b) / 2) * cos ((b - a) / 2).
Proof.
  intros a b. set (u := (a + b) / 2). set (v := (b - a) / 2).
  replace a with (u - v) by (unfold u, v; lra). replace b with (u + v) by (unfold u, v; lra).
  rewrite sin_minus, sin_plus. ring.
Qed.
Lemma trap_cos : forall al m, 2 * cos (al / 2) * trap (fun j => (-1) ^ j * cos (INR j * al)) m
  = - (-1) ^ m * sin (INR m * al) * sin (al / 2).
Proof.
  intros al m. induction m as [|m IH].
  - cbn [trap]. change (INR 0) with 0. rewrite Rmult_0_l, sin_0. ring.
  - cbn [trap]. rewrite Rmult_plus_distr_l, IH. rewrite S_INR.
    assert (E1 := half_angle (INR m * al) ((INR m + 1) * al)).
    assert (E2 := half_angle_sin (INR m * al) ((INR m + 1) * al)).
    replace (((INR m + 1) * al - INR m * al) / 2) with (al / 2) in E1, E2 by lra.
    change ((-1) ^ S m) with (-1 * (-1) ^ m).
    replace (sin ((INR m + 1) * al)) with (2 * sin ((INR m * al + (INR m + 1) * al) / 2) * cos (al / 2) - sin (INR m * al)) by lra.
    replace (cos ((INR m + 1) * al)) with (cos (INR m * al) - 2 * sin ((INR m * al + (INR m + 1) * al) / 2) * sin (al / 2)) by lra.
    field.
Qed.
Lemma sin_kPI : forall k, sin (INR k * PI) = 0.
Proof.
  intro k. assert (H : sin (INR k * PI) = 0 /\ True).
  { split; [|exact Logic.I]. induction k as [|k IH]; [cbn; rewrite Rmult_0_l; apply sin_0|].
    rewrite S_INR, Rmult_plus_distr_r, Rmult_1_l, neg_sin, IH. ring. }
  exact (proj1 H).
Qed.
Definition theta (n j : nat) : R := PI * INR j / INR n.
Lemma moment_cos : forall n k, (k < n)%nat -> moment (S n) (fun j => cos (INR k * theta n j)) = 0.
Proof.
  intros n k Hk. rewrite moment_trap by lia.
  assert (Hn : 0 < INR n) by (apply lt_0_INR; lia).
  pose proof PI_RGT_0 as Hpi.
  set (al := INR k * PI / INR n).
  assert (T : trap (fun j => (-1) ^ j * cos (INR k * theta n j)) n = trap (fun j => (-1) ^ j * cos (INR j * al)) n).
  { assert (E : forall m, trap (fun j => (-1) ^ j * cos (INR k * theta n j)) m = trap (fun j => (-1) ^ j * cos (INR j * al)) m).
    { induction m as [|m IH]; cbn [trap]; [reflexivity|]. rewrite IH. unfold theta, al.
      replace (INR k * (PI * INR m / INR n)) with (INR m * (INR k * PI / INR n)) by (field; lra).
      replace (INR k * (PI * INR (S m) / INR n)) with (INR (S m) * (INR k * PI / INR n)) by (field; lra). reflexivity. }
    apply E. }
  rewrite T. pose proof (trap_cos al n) as E.
  replace (INR n * al) with (INR k * PI) in E by (unfold al; field; lra). rewrite sin_kPI in E.
  assert (B : 0 < cos (al / 2)).
  { assert (K : INR k < INR n) by (apply lt_INR; exact Hk). assert (K0 : 0 <= INR k) by apply pos_INR.
    assert (A : 0 <= al < PI).
    { unfold al. split.
      - apply Rmult_le_pos; [apply Rmult_le_pos; lra|apply Rlt_le, Rinv_0_lt_compat; lra].
      - apply Rmult_lt_reg_r with (INR n); [lra|]. replace (INR k * PI / INR n * INR n) with (INR k * PI) by (field; lra). nra. }
    apply cos_gt_0; lra. }
  apply Rmult_eq_reg_l with (2 * cos (al / 2)); [|lra]. rewrite E. ring.
Qed.
Lemma moment_plus : forall N f g, moment N (fun j => f j + g j) = moment N f + moment N g.
Proof. intros. unfold moment. rewrite <- Sum_plus. apply Sum_ext. intros. ring. Qed.
Lemma moment_scal : forall N a f, moment N (fun j => a * f j) = a * moment N f.
Proof. intros. unfold moment. rewrite <- Sum_scal. apply Sum_ext. intros. ring. Qed.
Lemma moment_ext : forall N f g, (forall j, f j = g j) -> moment N f = moment N g.
Proof. intros. unfold moment. apply Sum_ext. intros. now rewrite H. Qed.
Lemma node_theta : forall n j, cheb_nodes (S n) j = 1 / 2 * (1 - cos (theta n j)).
Proof. intros. unfold cheb_nodes, theta. replace (S n - 1)%nat with n by lia. reflexivity. Qed.
Lemma cos_pred : forall k th, (0 < k)%nat -> cos (INR (S k) * th) + cos (INR (k - 1) * th) = 2 * cos (INR k * th) * cos th.
Proof.
  intros k th Hk. rewrite S_INR, minus_INR by lia. change (INR 1) with 1.
  replace ((INR k + 1) * th) with (INR k * th + th) by ring. replace ((INR k - 1) * th) with (INR k * th - th) by ring.
  rewrite cos_plus, cos_minus. ring.
Qed.
Lemma moment_low : forall n m k, (m + k < n)%nat -> moment (S n) (fun j => cheb_nodes (S n) j ^ m * cos (INR k * theta n j)) = 0.
Proof.
  intros n. induction m as [|m IH]; intros k Hk.
  - rewrite (moment_ext _ _ (fun j => cos (INR k * theta n j))); [apply moment_cos; lia|]. intro j. cbn. ring.
  - destruct k as [|k].
    + rewrite (moment_ext _ _ (fun j => 1 / 2 * (cheb_nodes (S n) j ^ m * cos (INR 0 * theta n j))
         + (- (1 / 2)) * (cheb_nodes (S n) j ^ m * cos (INR 1 * theta n j)))).
      * rewrite moment_plus, !moment_scal, !IH by lia. ring.
      * intro j. cbn [pow]. rewrite (node_theta n j) at 1. change (INR 0) with 0. change (INR 1) with 1.
        rewrite Rmult_0_l, Rmult_1_l, cos_0. ring.
    + rewrite (moment_ext _ _ (fun j => 1 / 2 * (cheb_nodes (S n) j ^ m * cos (INR (S k) * theta n j))
         + ((- (1 / 4)) * (cheb_nodes (S n) j ^ m * cos (INR (S (S k)) * theta n j))
         + (- (1 / 4)) * (cheb_nodes (S n) j ^ m * cos (INR k * theta n j))))).
      * rewrite !moment_plus, !moment_scal, !IH by lia. ring.
      * intro j. cbn [pow]. rewrite (node_theta n j) at 1.
        pose proof (cos_pred (S k) (theta n j) ltac:(lia)) as E. replace (S k - 1)%nat with k in E by lia.
        replace (cos (INR (S (S k)) * theta n j)) with (2 * cos (INR (S k) * theta n j) * cos (theta n j) - cos (INR k * theta n j)) by lra. field.
Qed.
Definition exact_moments (N : nat) (x : col) : Prop := forall m, (S m < N)%nat -> moment N (fun j => x j ^ m) = 0.
Lemma cheb_moments : forall N, exact_moments N (cheb_nodes N).
Proof.
  intros [|n] m Hm; [lia|]. rewrite (moment_ext _ _ (fun j => cheb_nodes (S n) j ^ m * cos (INR 0 * theta n j))).
  - apply moment_low. lia.
  - intro j. change (INR 0) with 0. rewrite Rmult_0_l, cos_0. ring.
Qed.

(** ** Nodes *)
Definition distinct (N : nat) (x : col) : Prop := forall i j, (i < N)%nat -> (j < N)%nat -> i <> j -> x i <> x j.
Lemma cheb_increasing : forall N i j, (i < j < N)%nat -> cheb_nodes N i < cheb_nodes N j.
Proof.
  intros N i j H. destruct N as [|n]; [lia|]. rewrite !node_theta.
  assert (Hn : 0 < INR n) by (apply lt_0_INR; lia). pose proof PI_RGT_0.
  assert (cos (theta n j) < cos (theta n i)); [|lra].
  assert (B : forall k, (k <= n)%nat -> 0 <= theta n k <= PI).
  { intros k Hk. unfold theta. assert (0 <= INR k <= INR n) by (split; [apply pos_INR|apply le_INR; exact Hk]).
    split; [apply Rmult_le_pos; [nra|apply Rlt_le, Rinv_0_lt_compat; lra]|].
    apply Rmult_le_reg_r with (INR n); [lra|]. replace (PI * INR k / INR n * INR n) with (PI * INR k) by (field; lra). nra. }
  apply cos_decreasing_1; try (apply B; lia).
  unfold theta. apply Rmult_lt_compat_r; [apply Rinv_0_lt_compat; lra|]. apply Rmult_lt_compat_l; [lra|]. apply lt_INR. lia.
Qed.
Lemma cheb_distinct : forall N, distinct N (cheb_nodes N).
Proof.
  intros N i j Hi Hj Hn E. destruct (Nat.lt_ge_cases i j).
  - pose proof (cheb_increasing N i j ltac:(lia)). lra.
  - pose proof (cheb_increasing N j i ltac:(lia)). lra.
Qed.

(** ** Differentiation *)
Lemma raw_off : forall N x i j, i <> j -> raw_D N x i j = weights N i * halved N j / (x i - x j).
Proof.
  intros N x i j H. unfold raw_D, halved. apply Nat.eqb_neq in H. rewrite H. f_equal. ring.
Qed.
Lemma diff_apply : forall N x v i, (i < N)%nat ->
  mulv N (diff_matrix N x) v i = Sum N (fun j => if Nat.eqb j i then 0 else raw_D N x i j * (v j - v i)).
Proof.
  intros N x v i Hi. unfold mulv.
  rewrite (Sum_ext N (fun j => diff_matrix N x i j * v j)
     (fun j => raw_D N x i j * v j - (if Nat.eqb j i then Sum N (fun k => raw_D N x i k) * v i else 0))).
  - rewrite Sum_minus, (Sum_one N (fun j => if Nat.eqb j i then _ else _) i Hi).
    + rewrite Nat.eqb_refl, <- Sum_mult_r, <- Sum_minus.
      apply Sum_ext. intros j _. destruct (Nat.eqb_spec j i); subst; ring.
    + intros j _ Hj. apply Nat.eqb_neq in Hj. now rewrite Hj.
  - intros j _. unfold diff_matrix. rewrite (Nat.eqb_sym j i). destruct (Nat.eqb_spec i j); subst; ring.
Qed.
Lemma diff_sum : forall N x v i, (i < N)%nat ->
  mulv N (diff_matrix N x) v i = - weights N i * Sum N (fun j => if Nat.eqb j i then 0 else halved N j * ((v j - v i) / (x j - x i))) \/
  ~ distinct N x.
Proof.
  intros N x v i Hi. destruct (Classical_Prop.classic (distinct N x)) as [Hd|Hd]; [left|right; exact Hd].
  rewrite diff_apply by exact Hi. rewrite <- Sum_scal. apply Sum_ext. intros j Hj.
  destruct (Nat.eqb_spec j i) as [|Ne]; [ring|]. rewrite raw_off by auto. field. specialize (Hd i j Hi Hj). split; intro E; apply Hd; auto; lra.
Qed.
Lemma diff_constants : forall N x k i, (i < N)%nat -> mulv N (diff_matrix N x) (fun _ => k) i = 0.
Proof. intros. rewrite diff_apply by assumption. apply Sum_zero. intros j _. destruct (Nat.eqb j i); ring. Qed.

(** a quotient that is a combination of low powers is seen exactly *)
Lemma diff_quotient : forall N x v q i, distinct N x -> (i < N)%nat ->
  (forall j, (j < N)%nat -> v j - v i = (x j - x i) * q j) -> moment N q = 0 ->
  mulv N (diff_matrix N x) v i = q i.
Proof.
  intros N x v q i Hd Hi Hv Hq. destruct (diff_sum N x v i Hi) as [E|E]; [|contradiction]. rewrite E. clear E.
  rewrite (Sum_ext _ _ (fun j => if Nat.eqb j i then 0 else halved N j * q j)).
  - unfold moment in Hq. rewrite (Sum_but N _ i Hi) in Hq. 
    replace (Sum N (fun j => if Nat.eqb j i then 0 else halved N j * q j)) with (- (halved N i * q i)) by lra.
    unfold halved. field. apply weights_neq.
  - intros j Hj. destruct (Nat.eqb_spec j i) as [|Ne]; [reflexivity|]. rewrite Hv by exact Hj. field.
    intro E. apply (Hd j i Hj Hi Ne). lra.
Qed.
Lemma pow_diff : forall k x y, x ^ k - y ^ k = (x - y) * Sum k (fun m => x ^ m * y ^ (k - 1 - m)).
Proof.
  induction k as [|k IH]; intros x y; [cbn; ring|].
  cbn [Sum]. replace (S k - 1 - k)%nat with 0%nat by lia. cbn [pow].
  rewrite (Sum_ext k _ (fun m => y * (x ^ m * y ^ (k - 1 - m)))).
  - rewrite Sum_scal. rewrite Rmult_plus_distr_l, <- Rmult_assoc, (Rmult_comm (x - y) y), Rmult_assoc, <- IH. ring.
  - intros m Hm. replace (S k - 1 - m)%nat with (S (k - 1 - m)) by lia. cbn. ring.
Qed.
Lemma pow_same : forall k x, Sum k (fun m => x ^ m * x ^ (k - 1 - m)) = INR k * x ^ pred k.
Proof.
  intros k x. rewrite (Sum_ext k _ (fun _ => x ^ pred k)).
  - generalize (x ^ pred k). intro c. clear. induction k as [|k IH]; cbn [Sum]; [cbn; ring|]. rewrite IH, S_INR. ring.
  - intros m Hm. rewrite <- pow_add. f_equal. lia.
Qed.
Lemma mulv_plus : forall N A v w i, mulv N A (fun j => v j + w j) i = mulv N A v i + mulv N A w i.
Proof. intros. unfold mulv. rewrite <- Sum_plus. apply Sum_ext. intros. ring. Qed.
Lemma mulv_scal : forall N A a v i, mulv N A (fun j => a * v j) i = a * mulv N A v i.
Proof. intros. unfold mulv. rewrite <- Sum_scal. apply Sum_ext. intros. ring. Qed.
Lemma mulv_ext : forall N A v w i, (forall j, (j < N)%nat -> v j = w j) -> mulv N A v i = mulv N A w i.
Proof. intros. unfold mulv. apply Sum_ext. intros. now rewrite H. Qed.
Lemma mulv_Sum : forall N A n (f : nat -> nat -> R) i, mulv N A (fun j => Sum n (fun k => f k j)) i = Sum n (fun k => mulv N A (f k) i).
Proof.
  intros. unfold mulv. rewrite <- Sum_swap. apply Sum_ext. intros j _. rewrite Sum_scal. reflexivity.
Qed.
Lemma diff_power : forall N x k i, distinct N x -> exact_moments N x -> (k < N)%nat -> (i < N)%nat ->
  mulv N (diff_matrix N x) (fun j => x j ^ k) i = INR k * x i ^ pred k.
Proof.
  intros N x k i Hd Hm Hk Hi. rewrite (diff_quotient N x _ (fun j => Sum k (fun m => x j ^ m * x i ^ (k - 1 - m))) i Hd Hi).
  - apply pow_same.
  - intros j _. apply pow_diff.
  - unfold moment. rewrite (Sum_ext N _ (fun j => Sum k (fun m => x i ^ (k - 1 - m) * (halved N j * x j ^ m)))).
    + rewrite Sum_swap. apply Sum_zero. intros m Hmk. rewrite Sum_scal.
      replace (Sum N (fun j => halved N j * x j ^ m)) with (moment N (fun j => x j ^ m)) by reflexivity.
      rewrite Hm by lia. ring.
    + intros j _. rewrite <- Sum_scal. apply Sum_ext. intros m _. ring.
Qed.
Definition dpoly (a : nat -> R) (n : nat) (x : R) : R := Sum n (fun k => a k * (INR k * x ^ pred k)).
Lemma diff_poly : forall N x a i, distinct N x -> exact_moments N x -> (i < N)%nat ->
  mulv N (diff_matrix N x) (fun j => poly a N (x j)) i = dpoly a N (x i).
Proof.
  intros N x a i Hd Hm Hi. unfold poly, dpoly. rewrite (mulv_Sum N _ N (fun k j => a k * x j ^ k)).
  apply Sum_ext. intros k Hk. rewrite (mulv_scal N _ (a k) (fun j => x j ^ k)), diff_power by assumption. reflexivity.
Qed.
Lemma poly_derivative : forall a n x, derivable_pt_lim (poly a n) x (dpoly a n x).
Proof.
  intros a n x. induction n as [|n IH].
  - unfold poly, dpoly. cbn. apply (derivable_pt_lim_const 0).
  - unfold poly, dpoly. cbn [Sum].
    apply (derivable_pt_lim_plus (fun x => Sum n (fun k => a k * x ^ k)) (fun x => a n * x ^ n)); [exact IH|].
    apply (derivable_pt_lim_scal (fun x => x ^ n)). apply derivable_pt_lim_pow.
Qed.
Lemma diff_exact : forall N x a, distinct N x -> exact_moments N x -> differentiates N x (diff_matrix N x) (poly a N).
Proof.
  intros N x a Hd Hm i d Hi H. rewrite diff_poly by assumption.
  exact (uniqueness_limite _ _ _ _ (poly_derivative a N (x i)) H).
Qed.

(** ** Polynomials *)
Definition is_poly (n : nat) (f : R -> R) : Prop := exists a, forall x, f x = poly a n x.
Lemma is_poly_ext : forall n f g, (forall x, f x = g x) -> is_poly n f -> is_poly n g.
Proof. intros n f g H (a & Ha). exists a. intro x. now rewrite <- H. Qed.
Lemma is_poly_zero : forall n, is_poly n (fun _ => 0).
Proof. intro n. exists (fun _ => 0). intro x. unfold poly. symmetry. apply Sum_zero. intros. ring. Qed.
Lemma is_poly_plus : forall n f g, is_poly n f -> is_poly n g -> is_poly n (fun x => f x + g x).
Proof.
  intros n f g (a & Ha) (b & Hb). exists (fun k => a k + b k). intro x. rewrite Ha, Hb. unfold poly. rewrite <- Sum_plus.
  apply Sum_ext. intros. ring.
Qed.
Lemma is_poly_scal : forall n c f, is_poly n f -> is_poly n (fun x => c * f x).
Proof.
  intros n c f (a & Ha). exists (fun k => c * a k). intro x. rewrite Ha. unfold poly. rewrite <- Sum_scal. apply Sum_ext. intros. ring.
Qed.
Lemma is_poly_monomial : forall n m, (m < n)%nat -> is_poly n (fun x => x ^ m).
Proof.
  intros n m H. exists (fun k => if Nat.eqb k m then 1 else 0). intro x. unfold poly.
  rewrite (Sum_one n _ m H); [rewrite Nat.eqb_refl; ring|]. intros j _ Hj. apply Nat.eqb_neq in Hj. rewrite Hj. ring.
Qed.
Lemma is_poly_sum : forall n m (f : nat -> R -> R), (forall k, (k < m)%nat -> is_poly n (f k)) -> is_poly n (fun x => Sum m (fun k => f k x)).
Proof.
  intros n m f. induction m as [|m IH]; intro H; cbn; [apply is_poly_zero|].
  apply is_poly_plus; [apply IH; intros; apply H; lia|apply H; lia].
Qed.
Lemma is_poly_weaken : forall n f, is_poly n f -> is_poly (S n) f.
Proof.
  intros n f (a & Ha). apply is_poly_ext with (poly a n); [intro; symmetry; apply Ha|]. unfold poly.
  apply is_poly_sum. intros k Hk. apply is_poly_scal, is_poly_monomial. lia.
Qed.
Lemma is_poly_weaken_le : forall n m f, (n <= m)%nat -> is_poly n f -> is_poly m f.
Proof. intros n m f H P. induction H; [exact P|apply is_poly_weaken; assumption]. Qed.
Lemma is_poly_shift : forall n f, is_poly n f -> is_poly (S n) (fun x => x * f x).
Proof.
  intros n f (a & Ha). apply is_poly_ext with (fun x => Sum n (fun k => a k * x ^ S k)).
  - intro x. rewrite Ha. unfold poly. rewrite <- Sum_scal. apply Sum_ext. intros. cbn. ring.
  - apply is_poly_sum. intros k Hk. apply (is_poly_scal _ (a k) (fun x => x ^ S k)), is_poly_monomial. lia.
Qed.
Lemma is_poly_root : forall n r f, is_poly n f -> is_poly (S n) (fun x => (x - r) * f x).
Proof.
  intros n r f H. apply is_poly_ext with (fun x => x * f x + - r * f x); [intro; ring|].
  apply is_poly_plus; [apply is_poly_shift, H|apply is_poly_scal, is_poly_weaken, H].
Qed.
Lemma is_poly_const : forall n c, (0 < n)%nat -> is_poly n (fun _ => c).
Proof.
  intros n c H. apply is_poly_ext with (fun x => c * x ^ 0); [intro; cbn; ring|]. apply (is_poly_scal _ c (fun x => x ^ 0)), is_poly_monomial, H.
Qed.
Lemma is_poly_affine : forall n f b c, is_poly n f -> is_poly n (fun x => f (b + x * c)).
Proof.
  intros n f b c (a & Ha). apply is_poly_ext with (fun x => Sum n (fun k => a k * (b + x * c) ^ k)); [intro; rewrite Ha; reflexivity|].
  apply is_poly_sum. intros k Hk. apply (is_poly_scal _ (a k) (fun x => (b + x * c) ^ k)).
  assert (G : forall k, is_poly (S k) (fun x => (b + x * c) ^ k)).
  { intro m. induction m as [|m IH]; [apply (is_poly_const 1 1); lia|].
    apply is_poly_ext with (fun x => b * (b + x * c) ^ m + c * (x * (b + x * c) ^ m)); [intro; cbn; ring|].
    apply is_poly_plus; [apply is_poly_scal, is_poly_weaken, IH|apply (is_poly_scal _ c (fun x => x * (b + x * c) ^ m)), is_poly_shift, IH]. }
  apply (is_poly_weaken_le (S k)); [lia|apply G].
Qed.
(** division by (x - r) *)
Lemma is_poly_divide : forall n f r, is_poly (S n) f -> exists q, is_poly n q /\ forall x, f x = f r + (x - r) * q x.
Proof.
  intros n f r (a & Ha). exists (fun x => Sum (S n) (fun k => a k * Sum k (fun m => x ^ m * r ^ (k - 1 - m)))). split.
  - apply is_poly_sum. intros k Hk. apply (is_poly_scal _ (a k) (fun x => Sum k (fun m => x ^ m * r ^ (k - 1 - m)))).
    apply is_poly_sum. intros m Hm. apply is_poly_ext with (fun x => r ^ (k - 1 - m) * x ^ m); [intro; ring|].
    apply (is_poly_scal _ _ (fun x => x ^ m)), is_poly_monomial. lia.
  - intro x. rewrite !Ha. unfold poly. rewrite <- Sum_scal, <- Sum_plus. apply Sum_ext. intros k _.
    pose proof (pow_diff k x r) as E. transitivity (a k * r ^ k + a k * ((x - r) * Sum k (fun m => x ^ m * r ^ (k - 1 - m)))); [rewrite <- E; ring|ring].
Qed.
(** a polynomial with as many roots as coefficients is zero *)
Lemma too_many_roots : forall n f y, is_poly n f -> distinct n y -> (forall i, (i < n)%nat -> f (y i) = 0) -> forall x, f x = 0.
Proof.
  induction n as [|n IH]; intros f y Hf Hd Hr x.
  - destruct Hf as (a & Ha). rewrite Ha. reflexivity.
  - destruct (is_poly_divide n f (y n) Hf) as (q & Hq & E). rewrite Hr in E by lia.
    assert (Z : forall x, q x = 0).
    { apply (IH q y Hq); [intros i j Hi Hj; apply Hd; lia|]. intros i Hi. pose proof (E (y i)) as Ei. rewrite Hr in Ei by lia.
      assert (y i - y n <> 0) by (intro K; apply (Hd i n); [lia|lia|lia|lra]).
      assert (P : (y i - y n) * q (y i) = 0) by lra. apply Rmult_integral in P. destruct P; [contradiction|assumption]. }
    rewrite E, Z. ring.
Qed.
(** interpolation *)
Lemma vanishing : forall n y, exists w, is_poly (S n) w /\ (forall i, (i < n)%nat -> w (y i) = 0) /\
  forall x, (forall i, (i < n)%nat -> x <> y i) -> w x <> 0.
Proof.
  induction n as [|n IH]; intro y.
  - exists (fun _ => 1). split; [apply is_poly_const; lia|]. split; [intros; lia|]. intros; lra.
  - destruct (IH y) as (w & P & Z & Nz). exists (fun x => (x - y n) * w x). split; [apply is_poly_root, P|]. split.
    + intros i Hi. destruct (Nat.eq_dec i n) as [-> | Ne]; [ring|]. rewrite Z by lia. ring.
    + intros x Hx. apply Rmult_integral_contrapositive. split; [specialize (Hx n ltac:(lia)); lra|apply Nz; intros; apply Hx; lia].
Qed.
Lemma interpolate : forall n y v, distinct n y -> exists f, is_poly n f /\ forall i, (i < n)%nat -> f (y i) = v i.
Proof.
  induction n as [|n IH]; intros y v Hd.
  - exists (fun _ => 0). split; [apply is_poly_zero|intros; lia].
  - destruct (IH y v) as (f & P & E); [intros i j Hi Hj; apply Hd; lia|].
    destruct (vanishing n y) as (w & Pw & Z & Nz).
    assert (Wn : w (y n) <> 0) by (apply Nz; intros i Hi; apply Hd; lia).
    exists (fun x => f x + (v n - f (y n)) / w (y n) * w x). split.
    + apply is_poly_plus; [apply is_poly_weaken, P|apply is_poly_scal, Pw].
    + intros i Hi. destruct (Nat.eq_dec i n) as [-> | Ne]; [field; exact Wn|]. rewrite (Z i), (E i) by lia. ring.
Qed.
(** calculus *)
Lemma is_poly_derivative : forall n f, is_poly (S n) f -> exists g, is_poly n g /\ forall x, derivable_pt_lim f x (g x).
Proof.
  intros n f (a & Ha). exists (dpoly a (S n)). split.
  - unfold dpoly. apply is_poly_sum. intros k Hk. apply (is_poly_scal _ (a k) (fun x => INR k * x ^ pred k)).
    destruct k as [|k].
    + apply is_poly_ext with (fun _ => 0); [intro; cbn; ring|apply is_poly_zero].
    + apply (is_poly_scal _ _ (fun x => x ^ pred (S k))), is_poly_monomial. cbn. lia.
  - intro x. apply derivable_pt_lim_ext with (poly a (S n)); [intro; symmetry; apply Ha|apply poly_derivative].
Qed.
Lemma is_poly_antiderivative : forall n f c, is_poly n f -> exists F, is_poly (S n) F /\ F c = 0 /\ forall x, derivable_pt_lim F x (f x).
Proof.
  intros n f c (a & Ha).
  set (G := fun x => Sum n (fun k => a k / INR (S k) * x ^ S k)).
  exists (fun x => G x + - G c). split; [|split; [ring|]].
  - apply is_poly_plus; [|apply is_poly_const; lia]. apply is_poly_sum. intros k Hk.
    apply (is_poly_scal _ _ (fun x => x ^ S k)), is_poly_monomial. lia.
  - intro x. rewrite <- (Rplus_0_r (f x)). apply (derivable_pt_lim_plus G (fun _ => - G c)); [|apply derivable_pt_lim_const].
    rewrite Ha. unfold poly, G. clear Ha. induction n as [|n IH]; cbn [Sum]; [apply (derivable_pt_lim_const 0)|].
    apply (derivable_pt_lim_plus (fun x => Sum n (fun k => a k / INR (S k) * x ^ S k)) (fun x => a n / INR (S n) * x ^ S n)); [exact IH|].
    replace (a n * x ^ n) with (a n / INR (S n) * (INR (S n) * x ^ pred (S n))).
    + apply (derivable_pt_lim_scal (fun x => x ^ S n)). apply derivable_pt_lim_pow.
    + cbn [pred]. field. apply not_0_INR. lia.
Qed.
Lemma zero_derivative : forall F, (forall x, derivable_pt_lim F x 0) -> forall x y, F x = F y.
Proof.
  intros F H. assert (pr : derivable F) by (intro x; exists 0; apply H).
  apply (null_derivative_1 F pr). intro x. apply derive_pt_eq_0. apply H.
Qed.
Lemma same_derivative : forall F G f, (forall x, derivable_pt_lim F x (f x)) -> (forall x, derivable_pt_lim G x (f x)) ->
  forall x y, F x - F y = G x - G y.
Proof.
  intros F G f HF HG x y. assert (E := zero_derivative (fun x => F x - G x)).
  assert (H : forall x, derivable_pt_lim (fun x => F x - G x) x 0).
  { intro z. replace 0 with (f z - f z) by ring. apply (derivable_pt_lim_minus F G); auto. }
  specialize (E H x y). cbn in E. lra.
Qed.

(** ** The inverse *)
Lemma tail_apply : forall n D v i, mulv n (tail_of_matrix D) v i = mulv (S n) D (fun j => match j with O => 0 | S k => v k end) (S i).
Proof. intros. unfold mulv. rewrite Sum_split_first. unfold tail_of_matrix. ring. Qed.
Lemma is_poly_differentiated : forall N x f g i, distinct N x -> exact_moments N x -> is_poly N f ->
  (forall t, derivable_pt_lim f t (g t)) -> (i < N)%nat -> mulv N (diff_matrix N x) (fun j => f (x j)) i = g (x i).
Proof.
  intros N x f g i Hd Hm (a & Ha) Hg Hi. rewrite (mulv_ext _ _ _ (fun j => poly a N (x j))) by (intros; apply Ha).
  apply (diff_exact N x a Hd Hm i (g (x i)) Hi). apply derivable_pt_lim_ext with f; [exact Ha|apply Hg].
Qed.
Section Inverse.
  Variables (n : nat) (x : col).
  Hypothesis (Hd : distinct (S n) x) (Hm : exact_moments (S n) x).
  Let A := tail_of_matrix (diff_matrix (S n) x).
  Let y : col := fun i => x (S i).
  Lemma y_distinct : distinct n y.
  Proof. intros i j Hi Hj Hn. apply Hd; lia. Qed.
  Lemma tail_onto : forall v, exists u, forall i, (i < n)%nat -> mulv n A u i = v i.
  Proof.
    intro v. destruct (interpolate n y v y_distinct) as (f & P & E).
    destruct (is_poly_antiderivative n f (x 0%nat) P) as (F & PF & F0 & DF).
    exists (fun k => F (x (S k))). intros i Hi. unfold A. rewrite tail_apply.
    rewrite (mulv_ext _ _ _ (fun j => F (x j))) by (intros [|j] _; [symmetry; exact F0|reflexivity]).
    rewrite (is_poly_differentiated (S n) x F f (S i) Hd Hm PF DF) by lia. apply E, Hi.
  Qed.
  Lemma tail_one_one : forall u, (forall i, (i < n)%nat -> mulv n A u i = 0) -> forall i, (i < n)%nat -> u i = 0.
  Proof.
    intros u Hu i Hi. set (v := fun j => match j with O => 0 | S k => u k end).
    destruct (interpolate (S n) x v Hd) as (f & P & E).
    destruct (is_poly_derivative n f P) as (g & Pg & Dg).
    assert (Z : forall t, g t = 0).
    { apply (too_many_roots n g y Pg y_distinct). intros k Hk. change (g (x (S k)) = 0).
      rewrite <- (is_poly_differentiated (S n) x f g (S k) Hd Hm P Dg) by lia.
      rewrite (mulv_ext _ _ _ v) by (intros; apply E; assumption). unfold v. rewrite <- tail_apply. apply Hu, Hk. }
    assert (C : f (x (S i)) = f (x 0%nat)).
    { apply zero_derivative. intro t. rewrite <- (Z t). apply Dg. }
    rewrite !E in C by lia. exact C.
  Qed.
End Inverse.
Lemma finite_choice : forall (T : Type) (d : T) n (P : nat -> T -> Prop), (forall j, (j < n)%nat -> exists c, P j c) ->
  exists f, forall j, (j < n)%nat -> P j (f j).
Proof.
  intros T d n P. induction n as [|n IH]; intro H; [exists (fun _ => d); intros; lia|].
  destruct IH as (f & Hf); [intros; apply H; lia|]. destruct (H n) as (c & Hc); [lia|].
  exists (fun j => if Nat.eqb j n then c else f j). intros j Hj. destruct (Nat.eqb_spec j n) as [-> | Ne]; [exact Hc|apply Hf; lia].
Qed.
Lemma product_mulv : forall n A B i j, product n A B i j = mulv n A (fun k => B k j) i.
Proof. reflexivity. Qed.
Lemma mulv_assoc : forall n A B v i, mulv n A (mulv n B v) i = mulv n (product n A B) v i.
Proof.
  intros. unfold mulv, product. rewrite (Sum_ext n _ (fun k => Sum n (fun j => A i k * B k j * v j))).
  - rewrite Sum_swap. apply Sum_ext. intros j _. rewrite Sum_mult_r. reflexivity.
  - intros k _. rewrite <- Sum_scal. apply Sum_ext. intros. ring.
Qed.
Lemma mulv_identity : forall n A v i, (i < n)%nat -> (forall j, (j < n)%nat -> A i j = identity i j) -> mulv n A v i = v i.
Proof.
  intros n A v i Hi H. unfold mulv. rewrite (Sum_one n _ i Hi).
  - rewrite H by exact Hi. unfold identity. rewrite Nat.eqb_refl. ring.
  - intros j Hj Ne. rewrite H by exact Hj. unfold identity. assert (Ne' : i <> j) by auto. apply Nat.eqb_neq in Ne'. rewrite Ne'. ring.
Qed.
Lemma inverse_of : forall n A, (forall v, exists u, forall i, (i < n)%nat -> mulv n A u i = v i) ->
  (forall u, (forall i, (i < n)%nat -> mulv n A u i = 0) -> forall i, (i < n)%nat -> u i = 0) -> exists B, inverse n A B.
Proof.
  intros n A Onto One.
  destruct (finite_choice col (fun _ => 0) n (fun j u => forall i, (i < n)%nat -> mulv n A u i = identity i j)) as (f & Hf).
  { intros j _. apply Onto. }
  exists (fun i j => f j i).
  assert (R : forall i j, (i < n)%nat -> (j < n)%nat -> product n A (fun i j => f j i) i j = identity i j).
  { intros i j Hi Hj. rewrite product_mulv. apply Hf; assumption. }
  intros i j Hi Hj. split; [apply R; assumption|].
  enough (forall i, (i < n)%nat -> product n (fun i j => f j i) A i j - identity i j = 0) by (specialize (H i Hi); lra).
  apply (One (fun i => product n (fun i j => f j i) A i j - identity i j)). clear i Hi. intros i Hi.
  rewrite (mulv_ext _ _ _ (fun k => product n (fun i j => f j i) A k j + -1 * identity k j)) by (intros; ring).
  rewrite mulv_plus, mulv_scal.
  change (fun k => product n (fun i0 j0 => f j0 i0) A k j) with (mulv n (fun i0 j0 => f j0 i0) (fun k => A k j)).
  rewrite mulv_assoc, mulv_identity; [|exact Hi|intros; apply R; assumption].
  unfold mulv. rewrite (Sum_one n _ j Hj); [unfold identity; rewrite Nat.eqb_refl; ring|].
  intros k _ Hk. unfold identity. apply Nat.eqb_neq in Hk. rewrite Hk. ring.
Qed.
Lemma tail_inverse : forall N x, distinct N x -> exact_moments N x -> exists B, inverse (N - 1) (tail_of_matrix (diff_matrix N x)) B.
Proof.
  intros [|n] x Hd Hm.
  - exists (fun _ _ => 0). intros i j Hi. cbn in Hi. lia.
  - replace (S n - 1)%nat with n by lia. apply inverse_of; [apply (tail_onto n x Hd Hm)|apply (tail_one_one n x Hd Hm)].
Qed.

(** ** Integration *)
Lemma pad_apply : forall n J v i, mulv (S n) (pad J) v i = match i with O => 0 | S k => mulv n J (fun j => v (S j)) k end.
Proof.
  intros n J v [|i]; unfold mulv.
  - apply Sum_zero. intros. cbn. ring.
  - rewrite Sum_split_first. cbn. ring.
Qed.
Lemma integral_of_difference : forall N x J v i, inverse (N - 1) (tail_of_matrix (diff_matrix N x)) J -> (i < N)%nat ->
  mulv N (pad J) (mulv N (diff_matrix N x) v) i = v i - v 0%nat.
Proof.
  intros [|n] x J v i HJ Hi; [lia|]. replace (S n - 1)%nat with n in HJ by lia. rewrite pad_apply. destruct i as [|i]; [ring|].
  rewrite (mulv_ext n J _ (mulv n (tail_of_matrix (diff_matrix (S n) x)) (fun k => v (S k) - v 0%nat))).
  - rewrite mulv_assoc. apply (mulv_identity n _ (fun k => v (S k) - v 0%nat)); [lia|]. intros j Hj. apply HJ; [lia|exact Hj].
  - intros j Hj. rewrite tail_apply. symmetry.
    rewrite (mulv_ext _ _ _ (fun k => v k + -1 * v 0%nat)) by (intros [|k] _; cbn; ring).
    rewrite mulv_plus, (diff_constants (S n) x (-1 * v 0%nat)) by lia. ring.
Qed.
Lemma difference_of_integral : forall N x J v i, inverse (N - 1) (tail_of_matrix (diff_matrix N x)) J -> (0 < i < N)%nat ->
  mulv N (diff_matrix N x) (mulv N (pad J) v) i = v i.
Proof.
  intros [|n] x J v [|i] HJ Hi; [lia|lia|lia|]. replace (S n - 1)%nat with n in HJ by lia.
  rewrite (mulv_ext _ _ _ (fun k => match k with O => 0 | S m => mulv n J (fun j => v (S j)) m end)) by (intros; apply pad_apply).
  rewrite <- tail_apply, mulv_assoc. apply (mulv_identity n _ (fun j => v (S j))); [lia|]. intros j Hj. apply HJ; [lia|exact Hj].
Qed.
Lemma integral_exact : forall N x J a, distinct N x -> exact_moments N x -> x 0%nat = 0 ->
  inverse (N - 1) (tail_of_matrix (diff_matrix N x)) J -> integrates N x (pad J) (poly a (N - 1)).
Proof.
  intros [|n] x J a Hd Hm H0 HJ i F Hi HF; [lia|]. replace (S n - 1)%nat with n in HF |- * by lia.
  destruct (is_poly_antiderivative n (poly a n) 0) as (G & PG & G0 & DG); [exists a; reflexivity|].
  rewrite (mulv_ext _ _ _ (mulv (S n) (diff_matrix (S n) x) (fun j => G (x j)))).
  - rewrite (integral_of_difference (S n) x J _ i HJ Hi), H0. symmetry. apply (same_derivative F G (poly a n) HF DG).
  - intros j Hj. symmetry. apply (is_poly_differentiated (S n) x G (poly a n) j Hd Hm PG DG Hj).
Qed.

(** ** Any nodes: affine functions *)
Lemma weights_vanish : forall N, (2 <= N)%nat -> moment N (fun _ => 1) = 0.
Proof.
  intros [|[|n]] H; [lia|lia|]. rewrite moment_trap by lia.
  assert (E : forall m, trap (fun j => (-1) ^ j * 1) m = 0).
  { induction m as [|m IH]; cbn [trap]; [reflexivity|]. rewrite IH. cbn [pow]. field. }
  apply E.
Qed.
Lemma diff_identity : forall N x i, (2 <= N)%nat -> distinct N x -> (i < N)%nat -> mulv N (diff_matrix N x) x i = 1.
Proof.
  intros N x i HN Hd Hi. apply (diff_quotient N x x (fun _ => 1) i Hd Hi); [intros; ring|apply weights_vanish, HN].
Qed.
Lemma integral_of_one : forall N x J i, (2 <= N)%nat -> distinct N x -> inverse (N - 1) (tail_of_matrix (diff_matrix N x)) J ->
  (i < N)%nat -> Sum N (pad J i) = x i - x 0%nat.
Proof.
  intros N x J i HN Hd HJ Hi. rewrite <- (integral_of_difference N x J x i HJ Hi). unfold mulv at 1. apply Sum_ext. intros j Hj.
  rewrite diff_identity by assumption. ring.
Qed.

(** ** Equidistant nodes *)
Lemma lin_distinct : forall N, distinct N (lin_nodes N).
Proof.
  intros N i j Hi Hj Hn E. unfold lin_nodes in E. assert (P : INR (N - 1) <> 0) by (apply not_0_INR; lia).
  assert (INR i = INR j).
  { replace (INR i) with (INR i / INR (N - 1) * INR (N - 1)) by (field; exact P). rewrite E. field. exact P. }
  apply Hn, INR_eq. assumption.
Qed.
Fixpoint from_two (h : R) (m : nat) (x : R) : R :=
  match m with O => 1 | S k => (x - INR (S (S k)) * h) * from_two h k x end.
Lemma from_two_poly : forall h m, is_poly (S m) (from_two h m).
Proof. intros h m. induction m as [|m IH]; [apply is_poly_const; lia|]. cbn [from_two]. apply is_poly_root, IH. Qed.
Lemma from_two_zero : forall h m k, (2 <= k < S (S m))%nat -> from_two h m (INR k * h) = 0.
Proof.
  intros h m. induction m as [|m IH]; intros k Hk; [lia|]. cbn [from_two].
  destruct (Nat.eq_dec k (S (S m))) as [-> | Ne]; [ring|]. rewrite IH by lia. ring.
Qed.
Lemma from_two_ratio : forall h m, from_two h m 0 = INR (S m) * from_two h m h.
Proof.
  intros h m. induction m as [|m IH]; [cbn; ring|]. cbn [from_two]. rewrite IH. rewrite !S_INR. ring.
Qed.
Lemma from_two_neq : forall h m, h <> 0 -> from_two h m h <> 0.
Proof.
  intros h m Hh. induction m as [|m IH]; cbn [from_two]; [lra|]. apply Rmult_integral_contrapositive. split; [|exact IH].
  rewrite !S_INR. replace (h - (INR m + 1 + 1) * h) with (- ((INR m + 1) * h)) by ring.
  apply Ropp_neq_0_compat, Rmult_integral_contrapositive. split; [|exact Hh]. pose proof (pos_INR m). lra.
Qed.
Lemma lin_not_exact : forall N, (4 <= N)%nat -> exists a, ~ differentiates N (lin_nodes N) (diff_matrix N (lin_nodes N)) (poly a N).
Proof.
  intros N HN. destruct N as [|[|[|m]]]; try lia. set (n := S (S m)). set (N := S n). fold n. fold N.
  set (h := 1 / INR n).
  assert (Pn : INR n <> 0) by (apply not_0_INR; unfold n; lia).
  assert (Hh : h <> 0) by (unfold h; apply Rmult_integral_contrapositive; split; [lra|apply Rinv_neq_0_compat, Pn]).
  assert (X : forall k, lin_nodes N k = INR k * h).
  { intro k. unfold lin_nodes, N, h. replace (S n - 1)%nat with n by lia. field. exact Pn. }
  set (g := from_two h (S m)).
  assert (Pf : is_poly N (fun x => x * g x)) by (apply is_poly_shift, from_two_poly).
  destruct (is_poly_derivative (S m) g) as (g' & _ & Dg); [apply from_two_poly|].
  destruct Pf as (a & Ha). exists a. intro E.
  assert (D0 : derivable_pt_lim (poly a N) 0 (g 0)).
  { apply derivable_pt_lim_ext with (fun x => x * g x); [exact Ha|].
    replace (g 0) with (1 * g 0 + 0 * g' 0) by ring. apply (derivable_pt_lim_mult (fun x => x) g); [apply derivable_pt_lim_id|apply Dg]. }
  specialize (E 0%nat (g 0)). rewrite (X 0%nat) in E. change (INR 0) with 0 in E. rewrite Rmult_0_l in E.
  specialize (E ltac:(unfold N; lia) D0).
  destruct (diff_sum N (lin_nodes N) (fun j => poly a N (lin_nodes N j)) 0 ltac:(unfold N; lia)) as [F|F]; [|exfalso; apply F, lin_distinct].
  rewrite F in E. clear F.
  rewrite (Sum_one N _ 1%nat) in E.
  - cbn [Nat.eqb] in E. rewrite <- !Ha, !X in E. unfold halved, weights, N, n in E. cbn [Nat.eqb orb Nat.sub] in E. cbn [pow] in E.
    change (INR 0) with 0 in E. change (INR 1) with 1 in E. rewrite Rmult_1_l, !Rmult_0_l in E.
    fold n in E. unfold g in E. rewrite (from_two_ratio h (S m)) in E.
    assert (Z := from_two_neq h (S m) Hh).
    assert (Q : 2 * from_two h (S m) h = INR (S (S m)) * from_two h (S m) h).
    { replace (1 * h) with h in E by ring. rewrite <- E. field. lra. }
    apply Rmult_eq_reg_r in Q; [|exact Z]. change 2 with (INR 2) in Q. apply INR_eq in Q. lia.
  - unfold N. lia.
  - intros j Hj Hj1. destruct (Nat.eqb_spec j 0) as [|Hj0]; [reflexivity|].
    rewrite <- !Ha, !X. assert (Z : g (INR j * h) = 0) by (apply from_two_zero; unfold N, n in Hj; lia). rewrite Z.
    change (INR 0) with 0. rewrite Rmult_0_r, !Rmult_0_l. unfold Rdiv. ring.
Qed.
