(** * Proofs about the lifting line: square systems, sums of sines, energy *)
From Coq Require Import Reals List Arith Lia Lra Psatz.
From Verif Require Import PyBase M_Opt P_Opt M_Mission P_Mission P_Cheb M_Line S_Line.
Import ListNotations.
Local Open Scope R_scope.

Lemma Sum_nonneg : forall n f, (forall j, (j < n)%nat -> 0 <= f j) -> 0 <= Sum n f.
Proof. induction n as [|n IH]; intros f H; cbn; [lra|]. pose proof (IH f (fun j L => H j (Nat.lt_lt_succ_r _ _ L))). pose proof (H n (Nat.lt_succ_diag_r n)). lra. Qed.
Lemma Sum_nonneg_0 : forall n f, (forall j, (j < n)%nat -> 0 <= f j) -> Sum n f <= 0 -> forall j, (j < n)%nat -> f j = 0.
Proof.
  intros n f H S j L. rewrite (Sum_but n f j L) in S. assert (0 <= Sum n (fun k => if Nat.eqb k j then 0 else f k)) by (apply Sum_nonneg; intros k K; destruct (Nat.eqb k j); [lra|apply H, K]).
  pose proof (H j L). lra.
Qed.
Lemma Sum_le : forall n f g, (forall j, (j < n)%nat -> f j <= g j) -> Sum n f <= Sum n g.
Proof. intros n f g H. assert (X : 0 <= Sum n (fun j => g j - f j)) by (apply Sum_nonneg; intros j L; specialize (H j L); lra). rewrite Sum_minus in X. lra. Qed.
Lemma Sum_pos_one : forall n f j, (forall k, (k < n)%nat -> 0 <= f k) -> (j < n)%nat -> 0 < f j -> 0 < Sum n f.
Proof. intros n f j H L P. rewrite (Sum_but n f j L). assert (0 <= Sum n (fun k => if Nat.eqb k j then 0 else f k)) by (apply Sum_nonneg; intros k K; destruct (Nat.eqb k j); [lra|apply H, K]). lra. Qed.

(** a column that is not zero *)
Lemma nonzero_row : forall n (f : nat -> R), (exists i, (i < n)%nat /\ f i <> 0) \/ forall i, (i < n)%nat -> f i = 0.
Proof.
  induction n as [|n IH]; intro f; [right; intros; lia|]. destruct (Req_dec (f n) 0) as [E|E]; [|left; exists n; split; [lia|exact E]].
  destruct (IH f) as [(i & L & P)|Z]; [left; exists i; split; [lia|exact P]|right; intros i L]. destruct (Nat.eq_dec i n) as [->|D]; [exact E|apply Z; lia].
Qed.
(** a square system without other solutions of the homogeneous equations can be solved *)
Lemma square_solvable : forall n (M : nat -> nat -> R),
  (forall x, (forall i, (i < n)%nat -> Sum n (fun j => M i j * x j) = 0) -> forall j, (j < n)%nat -> x j = 0) ->
  forall b : nat -> R, exists x, forall i, (i < n)%nat -> Sum n (fun j => M i j * x j) = b i.
Proof.
  induction n as [|n IH]; intros M K b; [exists (fun _ => 0); intros; lia|].
  destruct (nonzero_row (S n) (fun i => M i n)) as [(p & Lp & P)|Z].
  2:{ exfalso. assert (E : (fun j => if Nat.eqb j n then 1 else 0) n = 0); [|cbn in E; rewrite Nat.eqb_refl in E; lra].
      apply (K (fun j => if Nat.eqb j n then 1 else 0)); [|lia]. intros i L. apply Sum_zero. intros j Lj. destruct (Nat.eqb j n) eqn:Q; [apply Nat.eqb_eq in Q; subst; rewrite Z by exact L|]; ring. }
  set (sw := fun i => if Nat.eqb i p then n else i).
  assert (SW : forall i, (i < n)%nat -> (sw i < S n)%nat /\ sw i <> p) by (intros i L; unfold sw; destruct (Nat.eqb_spec i p); lia).
  set (M' := fun i j => M (sw i) j - M (sw i) n / M p n * M p j).
  assert (EX : forall x i, Sum n (fun j => M' i j * x j) = Sum n (fun j => M (sw i) j * x j) - M (sw i) n / M p n * Sum n (fun j => M p j * x j)).
  { intros x i. rewrite <- Sum_scal, <- Sum_minus. apply Sum_ext. intros j _. unfold M'. ring. }
  set (ext := fun (x : nat -> R) t => fun j => if Nat.eqb j n then t else x j).
  assert (EXT : forall x t i, Sum (S n) (fun j => M i j * ext x t j) = Sum n (fun j => M i j * x j) + M i n * t).
  { intros x t i. cbn [Sum]. f_equal; [apply Sum_ext; intros j L; unfold ext; replace (Nat.eqb j n) with false by (symmetry; apply Nat.eqb_neq; lia); reflexivity|unfold ext; rewrite Nat.eqb_refl; reflexivity]. }
  assert (ALL : forall x t (d : nat -> R), (forall i, (i < n)%nat -> Sum n (fun j => M' i j * x j) = d (sw i) - M (sw i) n / M p n * d p) -> Sum n (fun j => M p j * x j) + M p n * t = d p ->
                forall i, (i < S n)%nat -> Sum (S n) (fun j => M i j * ext x t j) = d i).
  { intros x t d Hx Ht i L. rewrite EXT. destruct (Nat.eq_dec i p) as [->|D]; [exact Ht|].
    assert (exists k, (k < n)%nat /\ sw k = i) as (k & Lk & Ek).
    { destruct (Nat.eq_dec i n) as [->|D']; [exists p; unfold sw; rewrite Nat.eqb_refl; split; [lia|reflexivity]|]. exists i. unfold sw. replace (Nat.eqb i p) with false by (symmetry; apply Nat.eqb_neq; exact D). split; [lia|reflexivity]. }
    specialize (Hx k Lk). rewrite EX, Ek in Hx. assert (T : t = (d p - Sum n (fun j => M p j * x j)) / M p n) by (apply (Rmult_eq_reg_l (M p n)); [field_simplify; [lra|exact P]|exact P]).
    rewrite T. apply Rplus_eq_reg_r with (- (M i n / M p n * d p)). replace (d i + - (M i n / M p n * d p)) with (d i - M i n / M p n * d p) by ring. rewrite <- Hx. field. exact P. }
  destruct (IH M') with (b := fun i => b (sw i) - M (sw i) n / M p n * b p) as (x & X).
  - intros x X j L. set (t := - Sum n (fun j => M p j * x j) / M p n).
    assert (Z : ext x t j = 0); [|unfold ext in Z; replace (Nat.eqb j n) with false in Z by (symmetry; apply Nat.eqb_neq; lia); exact Z].
    apply K; [|lia]. intros i Li. apply (ALL x t (fun _ => 0)); [intros k Lk; rewrite X by exact Lk; ring|unfold t; field; exact P|exact Li].
  - exists (ext x ((b p - Sum n (fun j => M p j * x j)) / M p n)). apply ALL; [exact X|field; exact P].
Qed.

(** ** sums of sines *)
Lemma cosum : forall r x, sin (x / 2) <> 0 -> sin (INR r * x) = 0 -> Sum r (fun i => cos (INR i * x)) = (1 - cos (INR r * x)) / 2.
Proof.
  intros r x H E. assert (T : forall m, 2 * sin (x / 2) * Sum m (fun i => cos (INR i * x)) = sin (INR m * x - x / 2) + sin (x / 2)).
  { induction m as [|m IH]; [cbn [Sum INR]; replace (0 * x - x / 2) with (- (x / 2)) by field; rewrite sin_neg; ring|].
    cbn [Sum]. rewrite Rmult_plus_distr_l, IH, S_INR. replace ((INR m + 1) * x - x / 2) with (INR m * x + x / 2) by field. rewrite sin_plus, sin_minus. ring. }
  specialize (T r). rewrite sin_minus, E in T. apply (Rmult_eq_reg_l (2 * sin (x / 2))); [rewrite T; field|lra].
Qed.
Section Stations.
Variable r : nat.
Hypothesis R2 : (2 <= r)%nat.
Let N := (r - 1)%nat.
Let rpos : 0 < INR r. Proof. apply lt_0_INR. lia. Qed.
Definition sn (j i : nat) : R := sin (INR (j + 1) * theta r i).
Lemma sin_theta : forall i, sin (theta r i) = sn 0 i. Proof. intro i. unfold sn. cbn [INR Nat.add]. rewrite Rmult_1_l. reflexivity. Qed.
Lemma theta_range : forall i, (i < N)%nat -> 0 < theta r i < PI.
Proof.
  intros i L. pose proof PI_RGT_0. unfold theta. assert (0 < INR (i + 1)) by (apply lt_0_INR; lia). assert (INR (i + 1) < INR r) by (apply lt_INR; unfold N in L; lia).
  split; [apply Rdiv_lt_0_compat; [apply Rmult_lt_0_compat; assumption|exact rpos]|]. apply (Rmult_lt_reg_r (INR r)); [exact rpos|]. unfold Rdiv. rewrite Rmult_assoc, Rinv_l by lra. nra.
Qed.
Lemma sin_theta_pos : forall i, (i < N)%nat -> 0 < sin (theta r i).
Proof. intros i L. destruct (theta_range i L). apply sin_gt_0; assumption. Qed.
Lemma sn_sym : forall j i, sn j i = sn i j.
Proof. intros. unfold sn, theta. f_equal. field. lra. Qed.
Lemma orthogonal : forall j k, (j < N)%nat -> (k < N)%nat -> Sum N (fun i => sn j i * sn k i) = if Nat.eqb j k then INR r / 2 else 0.
Proof.
  intros j k Lj Lk. pose proof PI_RGT_0 as PP. set (u := (INR (j + 1) - INR (k + 1)) * PI / INR r). set (v := (INR (j + 1) + INR (k + 1)) * PI / INR r).
  assert (E : Sum N (fun i => sn j i * sn k i) = / 2 * (Sum r (fun i => cos (INR i * u)) - Sum r (fun i => cos (INR i * v)))).
  { rewrite <- Sum_minus, <- Sum_scal. assert (RN : forall f, Sum r f = Sum (S N) f) by (intro f; f_equal; unfold N; lia). rewrite RN, Sum_split_first. change (INR 0) with 0. rewrite !Rmult_0_l, cos_0. replace (/ 2 * (1 - 1)) with 0 by ring. rewrite Rplus_0_l.
    apply Sum_ext. intros i _. cbv beta. unfold sn. replace (S i) with (i + 1)%nat by lia. set (a := INR (j + 1) * theta r i). set (b := INR (k + 1) * theta r i).
    replace (INR (i + 1) * u) with (a - b) by (unfold a, b, u, theta; field; lra). replace (INR (i + 1) * v) with (a + b) by (unfold a, b, v, theta; field; lra). rewrite cos_minus, cos_plus. field. }
  assert (J : 0 < INR (j + 1) < INR r) by (split; [apply lt_0_INR; lia|apply lt_INR; unfold N in Lj; lia]).
  assert (Kk : 0 < INR (k + 1) < INR r) by (split; [apply lt_0_INR; lia|apply lt_INR; unfold N in Lk; lia]).
  assert (RU : INR r * u = INR (j + 1) * PI - INR (k + 1) * PI) by (unfold u; field; lra). assert (RV : INR r * v = INR (j + 1) * PI + INR (k + 1) * PI) by (unfold v; field; lra).
  assert (V : Sum r (fun i => cos (INR i * v)) = (1 - cos (INR r * v)) / 2).
  { apply cosum; [|rewrite RV, sin_plus, !sin_kPI; ring]. apply Rgt_not_eq, sin_gt_0; unfold v.
    - apply Rdiv_lt_0_compat; [apply Rdiv_lt_0_compat; [apply Rmult_lt_0_compat; lra|lra]|lra].
    - apply (Rmult_lt_reg_r (2 * INR r)); [lra|]. replace ((INR (j + 1) + INR (k + 1)) * PI / INR r / 2 * (2 * INR r)) with ((INR (j + 1) + INR (k + 1)) * PI) by (field; lra). nra. }
  rewrite E, V, RV, cos_plus, !sin_kPI. destruct (Nat.eqb_spec j k) as [->|D].
  - rewrite (Sum_ext r _ (fun _ => 1)) by (intros i _; unfold u; replace (INR i * ((INR (k + 1) - INR (k + 1)) * PI / INR r)) with 0 by (field; lra); apply cos_0).
    assert (O : forall m, Sum m (fun _ => 1) = INR m) by (induction m as [|m IH]; [reflexivity|cbn [Sum]; rewrite IH, S_INR; reflexivity]). rewrite O.
    pose proof (sin2_cos2 (INR (k + 1) * PI)) as Q. rewrite sin_kPI in Q. unfold Rsqr in Q. nra.
  - rewrite cosum.
    + rewrite RU, cos_minus, !sin_kPI. field.
    + assert (B : - PI < u / 2 < PI /\ u / 2 <> 0).
      { unfold u. assert (DD : INR (j + 1) <> INR (k + 1)) by (intro Q; apply INR_eq in Q; lia).
        assert (X : (INR (j + 1) - INR (k + 1)) * PI / INR r / 2 = (INR (j + 1) - INR (k + 1)) / INR r * (PI / 2)) by (field; lra). rewrite X.
        assert (Y : -1 < (INR (j + 1) - INR (k + 1)) / INR r < 1).
        { split; apply (Rmult_lt_reg_r (INR r)); try exact rpos; unfold Rdiv; rewrite Rmult_assoc, Rinv_l by lra; lra. }
        split; [split; nra|]. intro Q. apply Rmult_integral in Q. destruct Q as [Q|Q]; [|lra]. apply Rmult_integral in Q. destruct Q as [Q|Q]; [lra|]. assert (0 < / INR r) by (apply Rinv_0_lt_compat, rpos). lra. }
      destruct B as (B & Z). destruct (Rtotal_order (u / 2) 0) as [Q|[Q|Q]]; [|contradiction|].
      * apply Rlt_not_eq. apply sin_lt_0_var; lra.
      * apply Rgt_not_eq, sin_gt_0; lra.
    + rewrite RU, sin_minus, !sin_kPI. ring.
Qed.
Lemma parseval : forall a b : nat -> R, Sum N (fun i => Sum N (fun j => a j * sn j i) * Sum N (fun k => b k * sn k i)) = INR r / 2 * Sum N (fun j => a j * b j).
Proof.
  intros a b. rewrite (Sum_ext N _ (fun i => Sum N (fun j => a j * sn j i * Sum N (fun k => b k * sn k i)))) by (intros; rewrite <- Sum_mult_r; reflexivity).
  rewrite Sum_swap, <- Sum_scal. apply Sum_ext. intros j Lj.
  rewrite (Sum_ext N _ (fun i => Sum N (fun k => a j * b k * (sn j i * sn k i)))) by (intros; rewrite <- Sum_scal; apply Sum_ext; intros; ring).
  rewrite Sum_swap. rewrite (Sum_one N _ j Lj).
  - rewrite Sum_scal, orthogonal by assumption. rewrite Nat.eqb_refl. ring.
  - intros k Lk D. rewrite Sum_scal, orthogonal by assumption. destruct (Nat.eqb_spec j k); [congruence|ring].
Qed.
Lemma first_harmonic : forall A : col, Sum N (fun i => sin (theta r i) * circulation r A i) = INR r / 2 * A 0%nat.
Proof.
  intro A. pose proof (parseval (fun j => if Nat.eqb j 0 then 1 else 0) A) as P.
  assert (L0 : (0 < N)%nat) by (unfold N; lia).
  cbv beta in P. rewrite (Sum_one N (fun j => (if Nat.eqb j 0 then 1 else 0) * A j) 0 L0) in P by (intros j _ D; destruct j; [congruence|cbn; ring]).
  rewrite Nat.eqb_refl, Rmult_1_l in P. rewrite <- P.
  apply Sum_ext. intros i _. change (Sum N (fun k => A k * sn k i)) with (circulation r A i). f_equal. rewrite (Sum_one N _ 0%nat L0) by (intros j _ D; destruct j; [congruence|cbn; ring]). rewrite sin_theta. cbn. ring.
Qed.

(** ** the equations *)
Variables (b : R) (c : col).
Hypothesis B : 0 < b.
Hypothesis C : forall i, (i < N)%nat -> 0 < c i.
Lemma grouped_pos : forall i, (i < N)%nat -> 0 < grouped b (c i).
Proof. intros i L. pose proof PI_RGT_0. unfold grouped. apply Rdiv_lt_0_compat; [apply Rmult_lt_0_compat; [apply C, L|lra]|lra]. Qed.
Definition slope (A : col) (i : nat) : R := Sum N (fun j => INR (j + 1) * A j * sn j i).
Lemma row : forall A i, Sum N (fun j => coefficient b c r i j * A j) = sin (theta r i) * circulation r A i + grouped b (c i) * slope A i.
Proof. intros A i. unfold circulation, slope. fold N. rewrite <- !Sum_scal, <- Sum_plus. apply Sum_ext. intros j _. unfold coefficient, sn. ring. Qed.
(** multiplied by the circulation and summed up *)
Lemma energy : forall A u, (forall i, (i < N)%nat -> Sum N (fun j => coefficient b c r i j * A j) = grouped b (c i) * sin (theta r i) * u i) ->
  Sum N (fun i => sin (theta r i) / grouped b (c i) * circulation r A i ^ 2) + INR r / 2 * Sum N (fun j => INR (j + 1) * A j ^ 2) = Sum N (fun i => sin (theta r i) * u i * circulation r A i).
Proof.
  intros A u H. rewrite (Sum_ext N (fun j => INR (j + 1) * A j ^ 2) (fun j => A j * (INR (j + 1) * A j))) by (intros; ring). rewrite <- parseval, <- Sum_plus. apply Sum_ext. intros i L.
  specialize (H i L). rewrite row in H. pose proof (grouped_pos i L) as G. fold (slope A i). change (Sum N (fun j => A j * sn j i)) with (circulation r A i).
  assert (E : slope A i = sin (theta r i) * u i - sin (theta r i) / grouped b (c i) * circulation r A i) by (apply (Rmult_eq_reg_l (grouped b (c i))); [|lra]; field_simplify; lra).
  rewrite E. ring.
Qed.
Lemma still : forall A, (forall i, (i < N)%nat -> Sum N (fun j => coefficient b c r i j * A j) = 0) -> forall j, (j < N)%nat -> A j = 0.
Proof.
  intros A H j L. assert (E : _ = 0) by (etransitivity; [apply (energy A (fun _ => 0)); intros i Li; rewrite (H i Li); ring|apply Sum_zero; intros; ring]).
  assert (P1 : 0 <= Sum N (fun i => sin (theta r i) / grouped b (c i) * circulation r A i ^ 2)).
  { apply Sum_nonneg. intros i Li. apply Rmult_le_pos; [left; apply Rdiv_lt_0_compat; [apply sin_theta_pos, Li|apply grouped_pos, Li]|apply pow2_ge_0]. }
  assert (P2 : forall k, (k < N)%nat -> 0 <= INR (k + 1) * A k ^ 2) by (intros; apply Rmult_le_pos; [apply pos_INR|apply pow2_ge_0]).
  assert (Z : INR (j + 1) * A j ^ 2 = 0) by (apply (Sum_nonneg_0 N (fun k => INR (k + 1) * A k ^ 2)); [exact P2|nra|exact L]).
  apply Rmult_integral in Z. destruct Z as [Z|Z]; [exfalso; assert (0 < INR (j + 1)) by (apply lt_0_INR; lia); lra|]. nra.
Qed.
End Stations.
