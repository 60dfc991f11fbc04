(** * C22, C38: the discretisation of time *)
From Coq Require Import Reals List Bool Lra Lia ZArith ClassicalEpsilon.
From Verif Require Import M_Mission M_Segments M_Cheb S_Mission S_Segments S_Cheb P_Mission P_Cheb.
Import ListNotations.
Local Open Scope R_scope.
Local Open Scope list_scope.

Lemma discretize_parts : forall inv nodes N x D J, inverts inv -> discretize inv nodes N = Some (x, D, J) ->
  x = nodes N /\ D = diff_matrix N x /\ (0 < N)%nat /\
  exists K, J = pad K /\ inverse (N - 1) (tail_of_matrix (diff_matrix N x)) K.
Proof.
  intros inv nodes N x D J Hi H. unfold discretize in H. destruct (Nat.eqb_spec N 0) as [|H0]; [discriminate|].
  specialize (Hi (N - 1)%nat (tail_of_matrix (diff_matrix N (nodes N)))).
  destruct (inv _ _) as [K|]; [|discriminate]. injection H as <- <- <-.
  split; [reflexivity|]. split; [reflexivity|]. split; [lia|]. exists K. auto.
Qed.

(** ** C38 *)
(** no number of control points from two on makes the call fail *)
Theorem C38_total : forall inv N, inverts inv -> (2 <= N)%nat -> exists d, chebyshev_data inv N = Some d.
Proof.
  intros inv N Hi HN. unfold chebyshev_data, discretize. destruct (Nat.eqb_spec N 0) as [|_]; [lia|].
  specialize (Hi (N - 1)%nat (tail_of_matrix (diff_matrix N (cheb_nodes N)))). cbv zeta.
  destruct (inv _ _) as [K|]; [eauto|]. exfalso.
  destruct (tail_inverse N (cheb_nodes N) (cheb_distinct N) (cheb_moments N)) as (B & HB). exact (Hi B HB).
Qed.
Theorem C38_none : forall inv, chebyshev_data inv 0 = None.
Proof. reflexivity. Qed.
(** the nodes run from 0 to 1, strictly increasing and symmetric *)
Theorem C38_nodes : forall inv N x D J, inverts inv -> (2 <= N)%nat -> chebyshev_data inv N = Some (x, D, J) ->
  x 0%nat = 0 /\ x (N - 1)%nat = 1 /\ (forall i j, (i < j < N)%nat -> x i < x j) /\
  (forall i, (i < N)%nat -> x i + x (N - 1 - i)%nat = 1).
Proof.
  intros inv N x D J Hi HN H. destruct (discretize_parts _ _ _ _ _ _ Hi H) as (-> & _).
  assert (P : INR (N - 1) <> 0) by (apply not_0_INR; lia).
  split; [|split; [|split]].
  - unfold cheb_nodes. change (INR 0) with 0. replace (PI * 0 / INR (N - 1)) with 0 by (field; exact P). rewrite cos_0. ring.
  - unfold cheb_nodes. replace (PI * INR (N - 1) / INR (N - 1)) with PI by (field; exact P). rewrite cos_PI. field.
  - intros i j Hij. apply cheb_increasing, Hij.
  - intros i Hi'. unfold cheb_nodes. rewrite (minus_INR (N - 1) i) by lia.
    replace (PI * (INR (N - 1) - INR i) / INR (N - 1)) with (PI - PI * INR i / INR (N - 1)) by (field; exact P).
    rewrite Rtrigo_facts.cos_pi_minus. field.
Qed.
(** differentiation: exact on all polynomials of degree below N; rows add up to zero *)
Theorem C38_differentiates : forall inv N x D J a, inverts inv -> chebyshev_data inv N = Some (x, D, J) ->
  differentiates N x D (poly a N).
Proof.
  intros inv N x D J a Hi H. destruct (discretize_parts _ _ _ _ _ _ Hi H) as (-> & -> & _).
  apply diff_exact; [apply cheb_distinct|apply cheb_moments].
Qed.
Theorem C38_rows : forall inv N x D J i, inverts inv -> chebyshev_data inv N = Some (x, D, J) -> (i < N)%nat ->
  Sum N (D i) = 0.
Proof.
  intros inv N x D J i Hi H HN. destruct (discretize_parts _ _ _ _ _ _ Hi H) as (-> & -> & _).
  rewrite <- (diff_constants N (cheb_nodes N) 1 i HN). unfold mulv. apply Sum_ext. intros. ring.
Qed.
(** integration: exact on all polynomials of degree below N - 1, zero at the first node *)
Theorem C38_integrates : forall inv N x D J a, inverts inv -> (2 <= N)%nat -> chebyshev_data inv N = Some (x, D, J) ->
  integrates N x J (poly a (N - 1)).
Proof.
  intros inv N x D J a Hi HN H. pose proof (C38_nodes _ _ _ _ _ Hi HN H) as (X0 & _).
  destruct (discretize_parts _ _ _ _ _ _ Hi H) as (-> & -> & _ & K & -> & HK).
  apply integral_exact; [apply cheb_distinct|apply cheb_moments|exact X0|exact HK].
Qed.
Theorem C38_first : forall inv N x D J j, inverts inv -> chebyshev_data inv N = Some (x, D, J) ->
  J 0%nat j = 0 /\ J j 0%nat = 0.
Proof.
  intros inv N x D J j Hi H. destruct (discretize_parts _ _ _ _ _ _ Hi H) as (_ & _ & _ & K & -> & _).
  split; [reflexivity|destruct j; reflexivity].
Qed.
(** each undoes the other, for whatever samples *)
Theorem C38_recovers : forall inv N x D J v i, inverts inv -> chebyshev_data inv N = Some (x, D, J) -> (i < N)%nat ->
  mulv N J (mulv N D v) i = v i - v 0%nat /\ ((0 < i)%nat -> mulv N D (mulv N J v) i = v i).
Proof.
  intros inv N x D J v i Hi H HN. destruct (discretize_parts _ _ _ _ _ _ Hi H) as (-> & -> & _ & K & -> & HK). split.
  - apply integral_of_difference; assumption.
  - intro H0. apply difference_of_integral; [assumption|lia].
Qed.
(** so missions discretised this way meet what C20 and C27 ask of the discretisation *)
Theorem C38_mission : forall inv st n, inverts inv -> (2 <= n)%nat -> chebyshev_data inv n = Some (discretization st n) ->
  starts_at_zero st n /\ ends_at_one st n /\ integrates_constants st n.
Proof.
  intros inv st n Hi Hn H. destruct (discretization st n) as [[x D] J] eqn:E.
  pose proof (C38_nodes _ _ _ _ _ Hi Hn H) as (X0 & X1 & _).
  destruct (discretize_parts _ _ _ _ _ _ Hi H) as (Ex & ED & _ & K & EJ & HK).
  unfold starts_at_zero, ends_at_one, integrates_constants. rewrite E. cbn [fst snd]. split; [|split].
  - split; [exact X0|]. intro j. rewrite EJ. reflexivity.
  - exact X1.
  - unfold last_row. rewrite EJ, (integral_of_one n x K (n - 1) Hn); [rewrite X0, X1; ring|rewrite Ex; apply cheb_distinct|exact HK|lia].
Qed.

(** The equidistant alternative uses the weights of the Chebyshev nodes.  With two or three points
    the nodes are the same ... *)
Theorem C38_linear_small : forall i, ((i < 2)%nat -> lin_nodes 2 i = cheb_nodes 2 i) /\ ((i < 3)%nat -> lin_nodes 3 i = cheb_nodes 3 i).
Proof.
  intro i. unfold lin_nodes, cheb_nodes. split; intro H.
  - destruct i as [|[|i]]; [| |lia]; cbn [Nat.sub INR].
    + replace (PI * 0 / 1) with 0 by field. rewrite cos_0. field.
    + replace (PI * 1 / 1) with PI by field. rewrite cos_PI. field.
  - destruct i as [|[|[|i]]]; [| | |lia]; cbn [Nat.sub INR].
    + replace (PI * 0 / (1 + 1)) with 0 by field. rewrite cos_0. field.
    + replace (PI * 1 / (1 + 1)) with (PI / 2) by field. rewrite cos_PI2. field.
    + replace (PI * (1 + 1) / (1 + 1)) with PI by field. rewrite cos_PI. field.
Qed.
(** ... with four or more the matrix does not differentiate the polynomials it should ... *)
Theorem C38_linear_refuted : forall inv N x D J, inverts inv -> (4 <= N)%nat -> linear_data inv N = Some (x, D, J) ->
  exists a, ~ differentiates N x D (poly a N).
Proof.
  intros inv N x D J Hi HN H. destruct (discretize_parts _ _ _ _ _ _ Hi H) as (-> & -> & _). apply lin_not_exact, HN.
Qed.
(** ... but it differentiates affine functions, and integrates constants *)
Theorem C38_linear_affine : forall inv N x D J a b i, inverts inv -> (2 <= N)%nat -> linear_data inv N = Some (x, D, J) -> (i < N)%nat ->
  mulv N D (fun j => a + b * x j) i = b /\ Sum N (J i) = x i - x 0%nat /\
  x 0%nat = 0 /\ x (N - 1)%nat = 1 /\ J 0%nat i = 0.
Proof.
  intros inv N x D J a b i Hi HN H Hn. destruct (discretize_parts _ _ _ _ _ _ Hi H) as (-> & -> & _ & K & -> & HK).
  assert (P : INR (N - 1) <> 0) by (apply not_0_INR; lia).
  split; [|split; [|split; [|split; [|reflexivity]]]].
  - rewrite (mulv_plus N _ (fun _ => a) (fun j => b * lin_nodes N j)), mulv_scal, diff_constants, diff_identity by (try assumption; apply lin_distinct). ring.
  - apply integral_of_one; [assumption|apply lin_distinct|exact HK|exact Hn].
  - unfold lin_nodes. cbn. field. exact P.
  - unfold lin_nodes. field. exact P.
Qed.

(** an inverter exists: every matrix has an inverse or not *)
Definition some_inverse : inverter := fun n A =>
  match excluded_middle_informative (exists B, inverse n A B) with
  | left H => Some (proj1_sig (constructive_indefinite_description _ H))
  | right _ => None
  end.
Example C38_inverts : inverts some_inverse.
Proof.
  intros n A. unfold some_inverse. destruct (excluded_middle_informative _) as [H|H].
  - exact (proj2_sig (constructive_indefinite_description _ H)).
  - intros B HB. apply H. exists B. exact HB.
Qed.
(** sixteen points, the default: the cube of the time *)
Example C38_case : exists x D J, chebyshev_data some_inverse 16 = Some (x, D, J) /\
  forall i, (i < 16)%nat -> mulv 16 D (fun j => x j ^ 3) i = 3 * x i ^ 2.
Proof.
  destruct (C38_total some_inverse 16 C38_inverts) as ([[x D] J] & H); [lia|]. exists x, D, J. split; [exact H|].
  intros i Hi. set (a := fun k => if Nat.eqb k 3 then 1 else 0).
  assert (E : forall t, poly a 16 t = t ^ 3) by (intro t; unfold poly, a; cbn; ring).
  rewrite <- (C38_differentiates _ _ _ _ _ a C38_inverts H i (3 * x i ^ 2) Hi).
  - unfold mulv. apply Sum_ext. intros j _. now rewrite E.
  - apply derivable_pt_lim_ext with (fun t => t ^ 3); [intro; symmetry; apply E|].
    replace (3 * x i ^ 2) with (INR 3 * x i ^ pred 3) by (cbn; ring). apply derivable_pt_lim_pow.
Qed.

(** ** C22 *)
(** the operators of time are those of dimensionless time, divided and multiplied by the time
    the segment takes *)
Theorem C22_scaling : forall n c nu v i, let T := time c (n - 1)%nat - time c 0%nat in T <> 0 ->
  let nu' := update_differentials_time n c nu in
  mulv n (t_D nu') v i = mulv n (nd_D nu) v i / T /\ mulv n (t_I nu') v i = mulv n (nd_I nu) v i * T /\
  t_x nu' i = nd_x nu i * T.
Proof.
  intros n c nu v i T HT nu'. unfold nu', update_differentials_time. cbn [t_D t_I t_x]. fold T. split; [|split; [|reflexivity]].
  - unfold mulv, Rdiv. rewrite <- Sum_mult_r. apply Sum_ext. intros. ring.
  - unfold mulv. rewrite <- Sum_mult_r. apply Sum_ext. intros. ring.
Qed.
(** the times of a segment are spread like its control points *)
Definition spread (n : nat) (x : col) (t : col) : Prop :=
  forall i, (i < n)%nat -> t i = t 0%nat + x i * (t (n - 1)%nat - t 0%nat).
(** the operators a segment uses: dimensionless ones from [chebyshev_data], then scaled *)
Definition operators (disc : nat -> col * mat * mat) (n : nat) (c : conds) (nu : numerics) : numerics :=
  update_differentials_time n c (initialize_differentials disc n nu).
Lemma operators_parts : forall disc n c nu x D J, disc n = (x, D, J) ->
  operators disc n c nu = Numerics x D J (fun i => x i * (time c (n - 1)%nat - time c 0%nat))
    (fun i j => D i j / (time c (n - 1)%nat - time c 0%nat)) (fun i j => J i j * (time c (n - 1)%nat - time c 0%nat)).
Proof. intros disc n c nu x D J H. unfold operators, initialize_differentials. rewrite H. reflexivity. Qed.
Lemma affine_derivative : forall b T x, derivable_pt_lim (fun s => b + s * T) x T.
Proof.
  intros b T x. assert (H : derivable_pt_lim (fun s => b + s * T) x (0 + (1 * T + x * 0))).
  { apply (derivable_pt_lim_plus (fun _ => b) (fun s => s * T)); [apply derivable_pt_lim_const|].
    apply (derivable_pt_lim_mult (fun s => s) (fun _ => T)); [apply derivable_pt_lim_id|apply derivable_pt_lim_const]. }
  replace (0 + (1 * T + x * 0)) with T in H by ring. exact H.
Qed.
Theorem C22_time : forall inv disc n c nu, inverts inv -> (2 <= n)%nat -> chebyshev_data inv n = Some (disc n) ->
  let t := time c in spread n (fst (fst (disc n))) t -> t (n - 1)%nat <> t 0%nat ->
  let D := t_D (operators disc n c nu) in let J := t_I (operators disc n c nu) in
  forall i, (i < n)%nat ->
    (forall k, mulv n D (fun _ => k) i = 0) /\
    mulv n D t i = 1 /\
    (forall v, mulv n J (mulv n D v) i = v i - v 0%nat) /\
    (forall a d, derivable_pt_lim (poly a n) (t i) d -> mulv n D (fun j => poly a n (t j)) i = d) /\
    (forall a F, (forall s, derivable_pt_lim F s (poly a (n - 1) s)) ->
       mulv n J (fun j => poly a (n - 1) (t j)) i = F (t i) - F (t 0%nat)).
Proof.
  intros inv disc n c nu Hi Hn Hc t Hs HT D J i Hin.
  destruct (disc n) as [[x D0] J0] eqn:E. unfold D, J. rewrite (operators_parts _ _ _ _ _ _ _ E). cbn [t_D t_I fst snd] in *.
  set (T := time c (n - 1)%nat - time c 0%nat). assert (HT' : T <> 0) by (unfold T; unfold t in HT; lra).
  pose proof (C38_nodes _ _ _ _ _ Hi Hn Hc) as (X0 & X1 & _).
  destruct (discretize_parts _ _ _ _ _ _ Hi Hc) as (Ex & ED & _ & K & EJ & HK).
  assert (Ds : forall v, mulv n (fun i j => D0 i j / T) v i = mulv n D0 v i / T).
  { intro v. unfold mulv, Rdiv. rewrite <- Sum_mult_r. apply Sum_ext. intros. ring. }
  assert (Js : forall v, mulv n (fun i j => J0 i j * T) v i = mulv n J0 v i * T).
  { intro v. unfold mulv. rewrite <- Sum_mult_r. apply Sum_ext. intros. ring. }
  assert (Tx : forall j, (j < n)%nat -> t j = t 0%nat + x j * T) by (intros j Hj; apply Hs, Hj).
  split; [|split; [|split; [|split]]].
  - intro k. rewrite Ds, ED, diff_constants by exact Hin. field. exact HT'.
  - rewrite Ds, (mulv_ext n D0 _ (fun j => t 0%nat + T * x j)) by (intros j Hj; rewrite (Tx j Hj); ring).
    rewrite (mulv_plus n D0 (fun _ => t 0%nat) (fun j => T * x j)), mulv_scal, ED, diff_constants, diff_identity
      by (try assumption; rewrite Ex; apply cheb_distinct). field. exact HT'.
  - intro v. rewrite Js. rewrite (mulv_ext n J0 _ (fun j => / T * mulv n D0 v j)).
    + rewrite mulv_scal. destruct (C38_recovers _ _ _ _ _ v i Hi Hc Hin) as [-> _]. field. exact HT'.
    + intros j _. unfold mulv. rewrite <- Sum_scal. apply Sum_ext. intros. unfold Rdiv. ring.
  - intros a d Hd. rewrite Ds.
    destruct (is_poly_affine n (poly a n) (t 0%nat) T) as (b & Hb); [exists a; reflexivity|].
    rewrite (mulv_ext n D0 _ (fun j => poly b n (x j))) by (intros j Hj; rewrite (Tx j Hj); apply Hb).
    rewrite (C38_differentiates _ _ _ _ _ b Hi Hc i (d * T) Hin); [field; exact HT'|].
    apply derivable_pt_lim_ext with (fun s => poly a n (t 0%nat + s * T)); [exact Hb|].
    rewrite (Tx i Hin) in Hd. 
    apply (derivable_pt_lim_comp (fun s => t 0%nat + s * T) (poly a n) (x i) T d); [|exact Hd].
    apply affine_derivative.
  - intros a F HF. rewrite Js.
    destruct (is_poly_affine (n - 1) (poly a (n - 1)) (t 0%nat) T) as (b & Hb); [exists a; reflexivity|].
    rewrite (mulv_ext n J0 _ (fun j => poly b (n - 1) (x j))) by (intros j Hj; rewrite (Tx j Hj); apply Hb).
    rewrite (C38_integrates _ _ _ _ _ b Hi Hn Hc i (fun s => / T * F (t 0%nat + s * T)) Hin).
    + rewrite Rmult_0_l, Rplus_0_r, <- (Tx i Hin). field. exact HT'.
    + intro s. rewrite <- Hb. replace (poly a (n - 1) (t 0%nat + s * T)) with (/ T * (poly a (n - 1) (t 0%nat + s * T) * T)) by (field; exact HT').
      apply (derivable_pt_lim_scal (fun s => F (t 0%nat + s * T))).
      apply (derivable_pt_lim_comp (fun s => t 0%nat + s * T) F s T (poly a (n - 1) (t 0%nat + s * T))); [|apply HF].
      apply affine_derivative.
Qed.
(** a segment of sixteen control points that takes 600 s *)
Example C22_case : exists disc, let x := fst (fst (disc 16%nat)) in
  chebyshev_data some_inverse 16 = Some (disc 16%nat) /\ spread 16 x (fun i => 100 + x i * 600) /\ 100 + x 15%nat * 600 <> 100 + x 0%nat * 600.
Proof.
  destruct (C38_total some_inverse 16 C38_inverts) as ([[x D] J] & H); [lia|]. exists (fun _ => (x, D, J)). cbn [fst].
  destruct (C38_nodes some_inverse 16 x D J C38_inverts ltac:(lia) H) as (X0 & X1 & _). change (16 - 1)%nat with 15%nat in X1.
  split; [exact H|]. split.
  - intros i _. change (16 - 1)%nat with 15%nat. rewrite X0, X1. ring.
  - rewrite X0, X1. lra.
Qed.

Print Assumptions C38_total.
Print Assumptions C38_none.
Print Assumptions C38_nodes.
Print Assumptions C38_differentiates.
Print Assumptions C38_rows.
Print Assumptions C38_integrates.
Print Assumptions C38_first.
Print Assumptions C38_recovers.
Print Assumptions C38_mission.
Print Assumptions C38_linear_small.
Print Assumptions C38_linear_refuted.
Print Assumptions C38_linear_affine.
Print Assumptions C22_scaling.
Print Assumptions C22_time.
