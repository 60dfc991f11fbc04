(** * Lifting line: C162-C163 *)
From Coq Require Import Reals List Arith Lia Lra Psatz.
From Verif Require Import PyBase M_Opt P_Opt M_Mission P_Mission P_Cheb M_Line S_Line P_Line.
Import ListNotations.
Local Open Scope R_scope.

Lemma sol_unique r b c a alpha A A' : (2 <= r)%nat -> 0 < b -> (forall i, (i < r - 1)%nat -> 0 < c i) -> solution b c a r alpha A -> solution b c a r alpha A' -> forall j, (j < r - 1)%nat -> A' j = A j.
Proof.
  intros R2 B C S S' j L. assert (Z : (fun j => A' j - A j) j = 0); [|cbv beta in Z; lra].
  apply (still r R2 b c B C (fun j => A' j - A j)); [|exact L]. intros i Li. rewrite (Sum_ext _ _ (fun j => coefficient b c r i j * A' j - coefficient b c r i j * A j)) by (intros; ring).
  rewrite Sum_minus, (S i Li), (S' i Li). ring.
Qed.
(** with positive chords the equations have one and only one solution, whatever the twist, angle and number of stations *)
Theorem C162_one_solution r b c a alpha : (2 <= r)%nat -> 0 < b -> (forall i, (i < r - 1)%nat -> 0 < c i) ->
  exists A, solution b c a r alpha A /\ forall A', solution b c a r alpha A' -> forall j, (j < r - 1)%nat -> A' j = A j.
Proof.
  intros R2 B C. destruct (square_solvable (r - 1) (coefficient b c r) (still r R2 b c B C) (downwash b c a r alpha)) as (A & S).
  exists A. split; [exact S|]. intros A' S'. apply (sol_unique r b c a alpha); assumption.
Qed.
Lemma drag_ext AR b mac r c c' A A' : (forall i, (i < r - 1)%nat -> c' i = c i) -> (forall j, (j < r - 1)%nat -> A' j = A j) -> drag_of AR b mac c' r A' = drag_of AR b mac c r A.
Proof.
  intros C E. unfold drag_of. f_equal; [|f_equal; apply Sum_ext; intros i L; rewrite C by exact L; reflexivity].
  apply Sum_ext. intros i L. f_equal. f_equal. unfold section_lift, section_angle. rewrite C by exact L. f_equal.
  - f_equal. f_equal. apply Sum_ext. intros j Lj. rewrite E by lia. reflexivity.
  - apply Sum_ext. intros j Lj. rewrite E by lia. reflexivity.
Qed.
Lemma same_shape w r c a c' a' : (forall i, (i < r - 1)%nat -> chord_twist w (etan w r i) = Ok (c i, a i)) -> (forall i, (i < r - 1)%nat -> chord_twist w (etan w r i) = Ok (c' i, a' i)) ->
  forall i, (i < r - 1)%nat -> c' i = c i /\ a' i = a i.
Proof. intros H H' i L. specialize (H i L). specialize (H' i L). rewrite H in H'. injection H'. auto. Qed.
Lemma sol_ext r b c a c' a' alpha A : (forall i, (i < r - 1)%nat -> c' i = c i /\ a' i = a i) -> solution b c' a' r alpha A -> solution b c a r alpha A.
Proof. intros E S i L. specialize (S i L). destruct (E i L) as (E1 & E2). unfold downwash, coefficient in *. rewrite E1, E2 in S. exact S. Qed.
Lemma fair_chords w r : fair w r -> lw_vertical w = false -> (2 <= r)%nat /\ 0 < lw_span w /\ exists c a, (forall i, (i < r - 1)%nat -> chord_twist w (etan w r i) = Ok (c i, a i)) /\ forall i, (i < r - 1)%nat -> 0 < c i.
Proof.
  intros [V|(R2 & B & F)] NV; [congruence|]. split; [exact R2|]. split; [exact B|].
  exists (fun i => match chord_twist w (etan w r i) with Ok (c, _) => c | Err _ => 0 end), (fun i => match chord_twist w (etan w r i) with Ok (_, a) => a | Err _ => 0 end).
  split; intros i L; destruct (F i L) as (c & a & E & P); rewrite E; [reflexivity|exact P].
Qed.
(** every call on a wing with positive chords gives one answer and the same whenever it is repeated *)
Theorem C162_one_answer w r alpha : fair w r -> exists out, lifting_line w r alpha out /\ forall out', lifting_line w r alpha out' -> out' = out.
Proof.
  intro F. unfold lifting_line. destruct (lw_vertical w) eqn:V; [exists (0, 0); auto|]. destruct (fair_chords w r F V) as (R2 & B & c & a & H & P).
  destruct (C162_one_solution r (lw_span w) c a alpha R2 B P) as (A & S & U). exists (lift_of (lw_aspect w) A, drag_of (lw_aspect w) (lw_span w) (lw_mac w) c r A). split; [exists c, a, A; auto|].
  intros out' (c' & a' & A' & H' & S' & ->). assert (E := same_shape w r c a c' a' H H'). assert (EA : forall j, (j < r - 1)%nat -> A' j = A j) by (apply U; apply (sol_ext r _ c a c' a'); assumption).
  f_equal; [unfold lift_of; rewrite EA by lia; reflexivity|apply drag_ext; [intros; apply E; assumption|exact EA]].
Qed.

(** ** C163 *)
(** what a call on a wing that is not vertical computes, with the chords fixed *)
Lemma open_call w r alpha out c a : lw_vertical w = false -> (forall i, (i < r - 1)%nat -> chord_twist w (etan w r i) = Ok (c i, a i)) -> lifting_line w r alpha out ->
  exists A, solution (lw_span w) c a r alpha A /\ out = (lift_of (lw_aspect w) A, drag_of (lw_aspect w) (lw_span w) (lw_mac w) c r A).
Proof.
  intros V H L. unfold lifting_line in L. rewrite V in L. destruct L as (c' & a' & A & H' & S & ->). assert (E := same_shape w r c a c' a' H H').
  exists A. split; [apply (sol_ext r _ c a c' a'); assumption|]. f_equal. apply drag_ext; [intros; apply E; assumption|reflexivity].
Qed.
(** lift is linear in the angle of attack *)
Theorem C163_linear w r t a1 a2 o1 o2 o : fair w r -> lifting_line w r a1 o1 -> lifting_line w r a2 o2 -> lifting_line w r ((1 - t) * a1 + t * a2) o -> fst o = (1 - t) * fst o1 + t * fst o2.
Proof.
  intros F L1 L2 L. destruct (lw_vertical w) eqn:V; [unfold lifting_line in *; rewrite V in *; subst; cbn; ring|]. destruct (fair_chords w r F V) as (R2 & B & c & a & H & P).
  destruct (open_call w r _ _ c a V H L1) as (A1 & S1 & ->). destruct (open_call w r _ _ c a V H L2) as (A2 & S2 & ->). destruct (open_call w r _ _ c a V H L) as (A & S & ->).
  assert (E : (fun j => (1 - t) * A1 j + t * A2 j) 0%nat = A 0%nat).
  { apply (sol_unique r (lw_span w) c a ((1 - t) * a1 + t * a2) A (fun j => (1 - t) * A1 j + t * A2 j)); try assumption; [|lia]. intros i Li.
    rewrite (Sum_ext _ _ (fun j => (1 - t) * (coefficient (lw_span w) c r i j * A1 j) + t * (coefficient (lw_span w) c r i j * A2 j))) by (intros; ring). rewrite Sum_plus, !Sum_scal, (S1 i Li), (S2 i Li). unfold downwash. ring. }
  cbn. unfold lift_of. rewrite <- E. ring.
Qed.
(** Cauchy-Schwarz with weights *)
Lemma weighted n (w g k : nat -> R) : (forall i, (i < n)%nat -> 0 < w i /\ 0 < k i) -> Sum n (fun i => w i * g i) ^ 2 <= Sum n (fun i => w i / k i * g i ^ 2) * Sum n (fun i => w i * k i).
Proof.
  intro H. set (P := Sum n (fun i => w i / k i * g i ^ 2)). set (Q := Sum n (fun i => w i * g i)). set (T := Sum n (fun i => w i * k i)).
  assert (X : forall s, 0 <= P - 2 * s * Q + s ^ 2 * T).
  { intro s. unfold P, Q, T. rewrite <- !Sum_scal, <- Sum_minus, <- Sum_plus. apply Sum_nonneg. intros i L. destruct (H i L) as (W & K).
    replace (w i / k i * g i ^ 2 - 2 * s * (w i * g i) + s ^ 2 * (w i * k i)) with (w i / k i * (g i - s * k i) ^ 2) by (field; lra). apply Rmult_le_pos; [left; apply Rdiv_lt_0_compat; assumption|apply pow2_ge_0]. }
  destruct (Nat.eq_dec n 0) as [->|N]; [cbn in *; unfold Q, P, T; cbn; lra|].
  assert (TP : 0 < T) by (apply (Sum_pos_one n _ 0%nat); [intros i L; destruct (H i L); nra|lia|destruct (H 0%nat ltac:(lia)); nra]).
  specialize (X (Q / T)). replace (P - 2 * (Q / T) * Q + (Q / T) ^ 2 * T) with ((P * T - Q ^ 2) / T) in X by (field; lra).
  assert (Y : 0 <= P * T - Q ^ 2); [|lra]. replace (P * T - Q ^ 2) with ((P * T - Q ^ 2) / T * T) by (field; lra). apply Rmult_le_pos; lra.
Qed.
Lemma seen_grouped r b c : (2 <= r)%nat -> 0 < b -> Sum (r - 1) (fun i => sin (theta r i) * grouped b (c i)) = INR r * seen_area b c r / b ^ 2.
Proof.
  intros R2 B. pose proof PI_RGT_0. assert (0 < INR r) by (apply lt_0_INR; lia). unfold seen_area. unfold Rdiv at 1. rewrite Rmult_assoc, <- Sum_mult_r, <- Sum_scal. apply Sum_ext. intros i _. unfold grouped. field. lra.
Qed.
(** the first coefficient of an untwisted wing: as much lift as the elliptic wing at most *)
Lemma slope_bounds r b c d A : (2 <= r)%nat -> 0 < b -> (forall i, (i < r - 1)%nat -> 0 < c i) -> 0 < d -> solution b c (fun _ => 0) r d A ->
  0 < A 0%nat /\ A 0%nat * (1 + seen_aspect b c r / 2) <= d /\ 0 < seen_aspect b c r.
Proof.
  intros R2 B C D S. assert (RP : 0 < INR r) by (apply lt_0_INR; lia). pose proof PI_RGT_0 as PP. set (N := (r - 1)%nat) in *.
  assert (E : Sum N (fun i => sin (theta r i) / grouped b (c i) * circulation r A i ^ 2) + INR r / 2 * Sum N (fun j => INR (j + 1) * A j ^ 2) = d * (INR r / 2 * A 0%nat)).
  { etransitivity; [apply (energy r R2 b c B C A (fun _ => d)); intros i L; rewrite (S i L); unfold downwash; ring|]. rewrite <- (first_harmonic r R2 A), <- Sum_scal. apply Sum_ext. intros; ring. }
  set (P := Sum N (fun i => sin (theta r i) / grouped b (c i) * circulation r A i ^ 2)) in *. set (Q := Sum N (fun j => INR (j + 1) * A j ^ 2)) in *.
  assert (W : forall i, (i < N)%nat -> 0 < sin (theta r i) /\ 0 < grouped b (c i)) by (intros i L; split; [apply sin_theta_pos; assumption|apply (grouped_pos r b c B C); exact L]).
  assert (CS := weighted N (fun i => sin (theta r i)) (circulation r A) (fun i => grouped b (c i)) W). cbv beta in CS. unfold N in CS at 1. rewrite (first_harmonic r R2 A) in CS. fold P in CS.
  unfold N in CS. rewrite (seen_grouped r b c R2 B) in CS. fold N in CS.
  assert (AP : 0 < seen_area b c r).
  { unfold seen_area. apply (Sum_pos_one _ _ 0%nat).
    - intros i L. left. apply Rmult_lt_0_compat; [|apply Rdiv_lt_0_compat; assumption]. apply Rmult_lt_0_compat; [apply C, L|apply Rmult_lt_0_compat; [lra|apply W, L]].
    - lia.
    - apply Rmult_lt_0_compat; [|apply Rdiv_lt_0_compat; assumption]. apply Rmult_lt_0_compat; [apply C; lia|apply Rmult_lt_0_compat; [lra|apply W; unfold N; lia]]. }
  assert (SP : 0 < seen_aspect b c r) by (apply Rdiv_lt_0_compat; [apply pow_lt, B|exact AP]).
  assert (T : INR r * seen_area b c r / b ^ 2 = INR r / seen_aspect b c r) by (unfold seen_aspect; field; lra). rewrite T in CS.
  assert (Q0 : A 0%nat ^ 2 <= Q).
  { unfold Q. rewrite (Sum_but N _ 0%nat) by (unfold N; lia). cbn [Nat.add INR]. rewrite Rmult_1_l. assert (0 <= Sum N (fun j => if Nat.eqb j 0 then 0 else INR (j + 1) * A j ^ 2)); [|lra].
    apply Sum_nonneg. intros j _. destruct (Nat.eqb j 0); [lra|apply Rmult_le_pos; [apply pos_INR|apply pow2_ge_0]]. }
  assert (P0 : (INR r / 4) * seen_aspect b c r * A 0%nat ^ 2 <= P).
  { assert (X : (INR r / 2 * A 0%nat) ^ 2 * (seen_aspect b c r / INR r) <= P * (INR r / seen_aspect b c r) * (seen_aspect b c r / INR r)) by (apply Rmult_le_compat_r; [left; apply Rdiv_lt_0_compat; assumption|exact CS]).
    replace ((INR r / 2 * A 0%nat) ^ 2 * (seen_aspect b c r / INR r)) with (INR r / 4 * seen_aspect b c r * A 0%nat ^ 2) in X by (field; lra).
    replace (P * (INR r / seen_aspect b c r) * (seen_aspect b c r / INR r)) with P in X by (field; lra). exact X. }
  assert (K : A 0%nat ^ 2 * (1 + seen_aspect b c r / 2) <= d * A 0%nat).
  { apply (Rmult_le_reg_l (INR r / 2)); [lra|]. replace (INR r / 2 * (d * A 0%nat)) with (d * (INR r / 2 * A 0%nat)) by ring. rewrite <- E. nra. }
  assert (NZ : A 0%nat <> 0).
  { intro Z. assert (PZ : 0 <= P) by (unfold P; apply Sum_nonneg; intros i L; destruct (W i L); apply Rmult_le_pos; [left; apply Rdiv_lt_0_compat; assumption|apply pow2_ge_0]).
    assert (QZ : Q <= 0) by (rewrite Z in E; nra).
    assert (AZ : forall j, (j < N)%nat -> A j = 0).
    { intros j L. assert (X : INR (j + 1) * A j ^ 2 = 0) by (apply (Sum_nonneg_0 N (fun j => INR (j + 1) * A j ^ 2)); [intros; apply Rmult_le_pos; [apply pos_INR|apply pow2_ge_0]|exact QZ|exact L]).
      apply Rmult_integral in X. destruct X as [X|X]; [assert (0 < INR (j + 1)) by (apply lt_0_INR; lia); lra|nra]. }
    specialize (S 0%nat ltac:(lia)). fold N in S. rewrite Sum_zero in S by (intros j L; rewrite (AZ j L); ring). unfold downwash in S. destruct (W 0%nat ltac:(unfold N; lia)) as (W1 & W2).
    assert (0 < grouped b (c 0%nat) * sin (theta r 0) * (d + 0 - 0)) by (apply Rmult_lt_0_compat; [apply Rmult_lt_0_compat; assumption|lra]). lra. }
  assert (A0 : 0 < A 0%nat) by (assert (0 < A 0%nat ^ 2) by nra; nra). split; [exact A0|]. split; [|exact SP]. apply (Rmult_le_reg_l (A 0%nat)); [exact A0|]. replace (A 0%nat * (A 0%nat * (1 + seen_aspect b c r / 2))) with (A 0%nat ^ 2 * (1 + seen_aspect b c r / 2)) by ring. lra.
Qed.
(** lift grows with the angle of attack, at most as fast as that of the elliptic wing of the same aspect ratio *)
Theorem C163_slope w r a1 a2 o1 o2 c a : lw_vertical w = false -> (2 <= r)%nat -> 0 < lw_span w -> 0 < lw_aspect w ->
  (forall i, (i < r - 1)%nat -> chord_twist w (etan w r i) = Ok (c i, a i) /\ 0 < c i) -> a1 < a2 -> lifting_line w r a1 o1 -> lifting_line w r a2 o2 ->
  let AR := seen_aspect (lw_span w) c r in fst o1 < fst o2 /\ 0 < AR /\ (lw_aspect w = AR -> fst o2 - fst o1 <= 2 * PI * (a2 - a1) / (1 + 2 / AR)).
Proof.
  intros V R2 B P H LT L1 L2 AR. destruct (open_call w r _ _ c a V (fun i L => proj1 (H i L)) L1) as (A1 & S1 & ->). destruct (open_call w r _ _ c a V (fun i L => proj1 (H i L)) L2) as (A2 & S2 & ->). pose proof PI_RGT_0 as PP.
  destruct (slope_bounds r (lw_span w) c (a2 - a1) (fun j => A2 j - A1 j) R2 B (fun i L => proj2 (H i L)) ltac:(lra)) as (X & Y & Z).
  { intros i L. rewrite (Sum_ext _ _ (fun j => coefficient (lw_span w) c r i j * A2 j - coefficient (lw_span w) c r i j * A1 j)) by (intros; ring). rewrite Sum_minus, (S2 i L), (S1 i L). unfold downwash. ring. }
  fold AR in Y, Z. cbn. unfold lift_of. split; [|split; [exact Z|]].
  - apply Rmult_lt_compat_r; [exact P|]. apply Rmult_lt_compat_r; lra.
  - intros ->. replace (2 * PI * (a2 - a1) / (1 + 2 / AR)) with ((a2 - a1) / (1 + AR / 2) * PI * AR) by (field; lra).
    replace (A2 0%nat * PI * AR - A1 0%nat * PI * AR) with ((A2 0%nat - A1 0%nat) * PI * AR) by ring. apply Rmult_le_compat_r; [lra|]. apply Rmult_le_compat_r; [lra|].
    apply (Rmult_le_reg_r (1 + AR / 2)); [lra|]. unfold Rdiv at 2. rewrite Rmult_assoc, Rinv_l by lra. lra.
Qed.
(** and on elliptic chords exactly as fast *)
Theorem C163_ellipse r b c0 alpha A : (2 <= r)%nat -> 0 < b -> 0 < c0 -> let c := fun i => c0 * sin (theta r i) in solution b c (fun _ => 0) r alpha A ->
  let AR := seen_aspect b c r in AR = 4 * b / (PI * c0) /\ lift_of AR A = 2 * PI * alpha / (1 + 2 / AR) /\ forall j, (0 < j < r - 1)%nat -> A j = 0.
Proof.
  intros R2 B C0 c S AR. pose proof PI_RGT_0 as PP. assert (RP : 0 < INR r) by (apply lt_0_INR; lia).
  assert (EA : AR = 4 * b / (PI * c0)).
  { unfold AR, seen_aspect. assert (X : seen_area b c r = c0 * b * PI / 4); [|rewrite X; field; lra]. unfold seen_area, c.
    rewrite (Sum_ext _ _ (fun i => c0 * b * PI / 2 / INR r * (sn r 0 i * sn r 0 i))) by (intros; rewrite !sin_theta; field; lra). rewrite Sum_scal, orthogonal by lia. cbn [Nat.eqb]. field. lra. }
  assert (G : forall i, grouped b (c i) = 2 / AR * sin (theta r i)) by (intro i; unfold grouped, c; rewrite EA; field; lra).
  assert (AP : 0 < AR) by (rewrite EA; apply Rdiv_lt_0_compat; [lra|apply Rmult_lt_0_compat; lra]).
  set (x := alpha / (1 + AR / 2)). set (X := fun j : nat => match j with O => x | _ => 0 end).
  assert (U := sol_unique r b c (fun _ => 0) alpha A X R2 B). assert (E : forall j, (j < r - 1)%nat -> X j = A j).
  { apply U; [|exact S|].
    - intros i L. unfold c. apply Rmult_lt_0_compat; [exact C0|apply sin_theta_pos; assumption].
    - intros i L. rewrite (Sum_one (r - 1) (fun j => coefficient b c r i j * X j) 0%nat); [|lia|intros j _ D; destruct j as [|j]; [congruence|cbn; ring]]. unfold coefficient, downwash. rewrite G. cbn [X Nat.add INR]. rewrite !Rmult_1_l. unfold x. field. lra. }
  split; [exact EA|]. split; [|intros j L; rewrite <- E by lia; destruct j; [lia|reflexivity]]. unfold lift_of. rewrite <- E by lia. cbn [X]. unfold x. field. lra.
Qed.
(** the lift coefficient is the lift of the circulation, summed over the stations, over the area *)
Theorem C163_loading r b S A : (2 <= r)%nat -> 0 < S -> lift_of (b ^ 2 / S) A * S = Sum (r - 1) (fun i => 4 * b * circulation r A i * (b / 2 * sin (theta r i)) * (PI / INR r)).
Proof.
  intros R2 P. assert (RP : 0 < INR r) by (apply lt_0_INR; lia). rewrite (Sum_ext _ _ (fun i => 2 * b ^ 2 * PI / INR r * (sin (theta r i) * circulation r A i))) by (intros; field; lra). rewrite Sum_scal, first_harmonic by exact R2. unfold lift_of. field. lra.
Qed.
Lemma theta_mirror r i : (i < r - 1)%nat -> theta r (mirror r i) = PI - theta r i.
Proof.
  intro L. assert (RP : 0 < INR r) by (apply lt_0_INR; lia). unfold theta, mirror. replace (r - 2 - i + 1)%nat with (r - (i + 1))%nat by lia. rewrite minus_INR by lia. field. lra.
Qed.
(** left and right are loaded alike *)
Theorem C163_symmetric w r alpha c a A : (2 <= r)%nat -> 0 < lw_span w -> (forall i, (i < r - 1)%nat -> chord_twist w (etan w r i) = Ok (c i, a i) /\ 0 < c i) -> solution (lw_span w) c a r alpha A ->
  forall i, (i < r - 1)%nat -> circulation r A (mirror r i) = circulation r A i.
Proof.
  intros R2 B H S. set (b := lw_span w) in *. set (e := fun j => - cos (INR (j + 1) * PI)).
  assert (E : forall j i, (i < r - 1)%nat -> sin (INR (j + 1) * theta r (mirror r i)) = e j * sin (INR (j + 1) * theta r i)).
  { intros j i L. rewrite theta_mirror by exact L. rewrite Rmult_minus_distr_l, sin_minus, sin_kPI. unfold e. ring. }
  assert (M : forall i, (i < r - 1)%nat -> c (mirror r i) = c i /\ a (mirror r i) = a i).
  { intros i L. assert (L' : (mirror r i < r - 1)%nat) by (unfold mirror; lia). destruct (H i L) as (H1 & _). destruct (H _ L') as (H2 & _).
    assert (X : etan w r (mirror r i) = etan w r i). { unfold etan, yn. rewrite theta_mirror by exact L. replace (cos (PI - theta r i)) with (- cos (theta r i)) by (rewrite cos_minus, cos_PI, sin_PI; ring). rewrite <- Rabs_Ropp. f_equal. fold b. field. lra. }
    rewrite X, H1 in H2. injection H2. auto. }
  assert (ST : forall i, (i < r - 1)%nat -> sin (theta r (mirror r i)) = sin (theta r i)) by (intros i L; rewrite theta_mirror by exact L; apply sin_PI_x).
  assert (X : solution b c a r alpha (fun j => e j * A j)).
  { intros i L. assert (L' : (mirror r i < r - 1)%nat) by (unfold mirror; lia). destruct (M i L) as (M1 & M2). specialize (S _ L'). unfold downwash in S. rewrite M1, M2, (ST i L) in S. unfold downwash. rewrite <- S.
    apply Sum_ext. intros j _. unfold coefficient. rewrite (E j i L), (ST i L), M1. ring. }
  assert (U := sol_unique r b c a alpha A (fun j => e j * A j) R2 B (fun i L => proj2 (H i L)) S X). cbv beta in U.
  intros i L. unfold circulation. apply Sum_ext. intros j Lj. rewrite (E j i L). rewrite <- (U j Lj) at 2. ring.
Qed.
Definition plain_wing : lwing := LWing false 10 10 10 1 (1 / 2) 0 0 1 (1 / 2) [].
Lemma eta_range w r i : (2 <= r)%nat -> 0 < lw_span w -> (i < r - 1)%nat -> 0 <= etan w r i < 1.
Proof.
  intros R2 B L. unfold etan, yn. replace (2 * (- lw_span w * cos (theta r i) / 2) / lw_span w) with (- cos (theta r i)) by (field; lra). rewrite Rabs_Ropp. split; [apply Rabs_pos|].
  destruct (theta_range r R2 i L) as (T0 & T1). apply Rabs_def1.
  - rewrite <- cos_0. apply cos_decreasing_1; lra.
  - apply Rlt_le_trans with (r2 := cos (theta r i)); [|lra]. replace (- (1)) with (cos PI) by (rewrite cos_PI; ring). apply cos_decreasing_1; lra.
Qed.
Example C162_case : fair plain_wing 8 /\ untwisted plain_wing 8 /\ lw_aspect plain_wing > 0.
Proof.
  assert (B : 0 < lw_span plain_wing) by (cbn; lra). split; [right; split; [lia|]; split; [exact B|]|split; [|cbn; lra]].
  - intros i L. pose proof (eta_range plain_wing 8 i ltac:(lia) B L). unfold chord_twist. cbn [lw_stations plain_wing]. eexists. eexists. split; [reflexivity|]. cbn [lw_root lw_taper plain_wing] in *. lra.
  - intros i c a _ E. unfold chord_twist in E. cbn [lw_stations plain_wing lw_root_twist lw_tip_twist] in E. apply (f_equal (fun x => match x with Ok (_, a) => a | _ => 0 end)) in E. cbv beta iota zeta in E. lra.
Qed.
Print Assumptions C162_one_solution.
Print Assumptions C162_one_answer.
Print Assumptions C163_linear.
Print Assumptions C163_slope.
Print Assumptions C163_ellipse.
Print Assumptions C163_loading.
Print Assumptions C163_symmetric.
