(** * Proofs about cryogenics *)
From Coq Require Import Reals List Bool Lia Lra Psatz.
From Coquelicot Require Import Coquelicot.
From Verif Require Import PyBase M_Opt P_Opt M_Cryo S_Cryo.
Import ListNotations.
Local Open Scope R_scope.

(** ** quad *)
Lemma quad_const c a b : quad (fun _ => c) a b = (b - a) * c.
Proof. unfold quad. rewrite RInt_const. reflexivity. Qed.
Lemma quad_ext f g a b : (forall x, f x = g x) -> quad f a b = quad g a b.
Proof. intro E. unfold quad. apply RInt_ext. intros x _. apply E. Qed.
Definition cont (f : R -> R) : Prop := forall x, continuous f x.
Lemma cont_pt f : (forall x, continuity_pt f x) -> cont f.
Proof. intros C x. apply continuity_pt_filterlim, C. Qed.
Lemma cont_ex f a b : cont f -> ex_RInt f a b.
Proof. intro C. apply (ex_RInt_continuous (V := R_CompleteNormedModule)). intros; apply C. Qed.
Lemma quad_split f a b c : cont f -> quad f a c = quad f a b + quad f b c.
Proof. intro C. unfold quad. symmetry. apply (RInt_Chasles (V := R_CompleteNormedModule)); now apply cont_ex. Qed.
Lemma quad_pos f a b : cont f -> a < b -> (forall x, a < x < b -> 0 < f x) -> 0 < quad f a b.
Proof. intros C L P. unfold quad. apply RInt_gt_0; auto. Qed.
Lemma quad_nil f a : quad f a a = 0.
Proof. unfold quad. apply (RInt_point (V := R_CompleteNormedModule)). Qed.
Lemma quad_swap f a b : cont f -> quad f a b = - quad f b a.
Proof. intro C. pose proof (quad_split f a b a C) as E. rewrite quad_nil in E. lra. Qed.
Lemma quad_scal f c a b : cont f -> quad (fun x => c * f x) a b = c * quad f a b.
Proof. intro C. unfold quad. apply (RInt_scal (V := R_CompleteNormedModule) f a b c). now apply cont_ex. Qed.
Lemma cubic_cont c0 c1 c2 c3 : cont (cubic c0 c1 c2 c3).
Proof. apply cont_pt. intro x. unfold cubic. reg. Qed.

(** ** Coolers *)
Lemma eff_pos k p : k <> Other -> temp_min k (cp_amb p) < cp_tgt p -> 0 < slope k * (cp_tgt p - temp_min k (cp_amb p)).
Proof. intros K T. apply Rmult_lt_0_compat; [destruct k; cbn; try lra; now destruct K|lra]. Qed.
Lemma cool_some k p : k <> Other -> temp_min k (cp_amb p) < cp_tgt p ->
  let e := slope k * (cp_tgt p - temp_min k (cp_amb p)) in cool_point k p = Some (cp_load p / e, cooler_mass k (cp_load p / e)).
Proof. intros K T. pose proof (eff_pos k p K T). cbn. unfold cool_point. destruct (Req_EM_T _ 0) as [Z|Z]; [lra|reflexivity]. Qed.
Lemma slope_pos k : k <> Other -> 0 < slope k. Proof. destruct k; cbn; intro; try lra; easy. Qed.
Lemma existsb_false {A} (f : A -> bool) l : existsb f l = false <-> forall x, In x l -> f x = false.
Proof.
  induction l as [|a l IH]; cbn; [split; [intros _ x []|reflexivity]|]. rewrite orb_false_iff, IH. split.
  - intros [A1 A2] x [<-|I]; auto. - intro H. split; auto.
Qed.
Lemma targets_id l : (forall p, In p l -> 1 <= cp_tgt p) -> targets l = l.
Proof. intro H. unfold targets. destruct (existsb _ l) eqn:E; [|reflexivity]. apply existsb_exists in E. destruct E as (p & I & L). apply Rltb_true in L. specialize (H p I). lra. Qed.
Lemma carnot_ok k : k <> Other -> forall d, slope k * ((29215 / 100 - room_min k) - d) * d <= 24.
Proof. intros K d. destruct k; try (now destruct K); cbn [slope room_min];
  match goal with |- context [ (?c - d) * d ] => idtac | |- ?s * (?c - d) * d <= _ => pose proof (pow2_ge_0 (d - c / 2)); nra end. Qed.

(** ** Coolants *)
Lemma enthalpy_heat g p a b : a <= b -> a <> boil_temp g p -> b <> boil_temp g p ->
  heat_per_kg g a b p = 1000 * (enthalpy g p b - enthalpy g p a).
Proof.
  intros L A B. unfold heat_per_kg, enthalpy. set (x := boil_temp g p) in *. pose proof (cubic_cont (lc0 g) (lc1 g) (lc2 g) (lc3 g)) as CL.
  pose proof (cubic_cont (gc0 g) (gc1 g) (gc2 g) (gc3 g)) as CG. fold (liquid_cp g) in CL. fold (gas_cp g) in CG.
  destruct (Rltb x b) eqn:E1; [apply Rltb_true in E1|apply Rltb_false in E1]; (destruct (Rltb a x) eqn:E2; [apply Rltb_true in E2|apply Rltb_false in E2]);
  cbn [andb]; destruct (Rlt_dec b x); try lra; destruct (Rlt_dec a x); try lra; destruct (Rlt_dec x b); try lra; destruct (Rlt_dec x a); try lra.
  - rewrite (quad_split _ x a b CG). ring.
  - rewrite (quad_split _ a b x CL). ring.
Qed.
Lemma heat_liquid g a b p : a < boil_temp g p -> b <= boil_temp g p -> heat_per_kg g a b p = 1000 * quad (liquid_cp g) a b.
Proof.
  intros A B. unfold heat_per_kg. replace (Rltb (boil_temp g p) b) with false by (symmetry; now apply Rltb_false).
  replace (Rltb a (boil_temp g p)) with true by (symmetry; now apply Rltb_true). cbn. ring.
Qed.
Lemma heat_gas g a b p : boil_temp g p <= a -> boil_temp g p < b -> heat_per_kg g a b p = 1000 * quad (gas_cp g) a b.
Proof.
  intros A B. unfold heat_per_kg. replace (Rltb (boil_temp g p) b) with true by (symmetry; now apply Rltb_true).
  replace (Rltb a (boil_temp g p)) with false by (symmetry; now apply Rltb_false). cbn. ring.
Qed.
Lemma heat_both g a b p : a < boil_temp g p -> boil_temp g p < b ->
  heat_per_kg g a b p = 1000 * (quad (liquid_cp g) a (boil_temp g p) + latent g p + quad (gas_cp g) (boil_temp g p) b).
Proof.
  intros A B. unfold heat_per_kg. replace (Rltb (boil_temp g p) b) with true by (symmetry; now apply Rltb_true).
  replace (Rltb a (boil_temp g p)) with true by (symmetry; now apply Rltb_true). cbn. ring.
Qed.
Lemma heat_none g a b p : boil_temp g p <= a -> b <= boil_temp g p -> heat_per_kg g a b p = 0.
Proof.
  intros A B. unfold heat_per_kg. replace (Rltb (boil_temp g p) b) with false by (symmetry; now apply Rltb_false).
  replace (Rltb a (boil_temp g p)) with false by (symmetry; now apply Rltb_false). cbn. ring.
Qed.
(** a coolant with positive heats between [lo] and [hi] *)
Definition warms (g : cryogen) (lo hi p : R) : Prop :=
  (forall t, lo < t < hi -> 0 < liquid_cp g t /\ 0 < gas_cp g t) /\ 0 < latent g p.
Lemma heat_more g lo hi p a b c : warms g lo hi p -> lo <= a -> a <= b -> b < c -> c <= hi -> heat_per_kg g a b p < heat_per_kg g a c p \/ (a = b /\ a = boil_temp g p).
Proof.
  intros [W1 W2] A AB BC C. pose proof (cubic_cont (lc0 g) (lc1 g) (lc2 g) (lc3 g)) as CL.
  pose proof (cubic_cont (gc0 g) (gc1 g) (gc2 g) (gc3 g)) as CG. fold (liquid_cp g) in CL. fold (gas_cp g) in CG. set (x := boil_temp g p) in *.
  assert (PL : forall u v, lo <= u -> u < v -> v <= hi -> 0 < quad (liquid_cp g) u v). { intros u v U V V2. apply quad_pos; auto. intros t T. apply W1. lra. }
  assert (PG : forall u v, lo <= u -> u < v -> v <= hi -> 0 < quad (gas_cp g) u v). { intros u v U V V2. apply quad_pos; auto. intros t T. apply W1. lra. }
  destruct (Rlt_dec a x) as [Ax|Ax].
  - left. destruct (Rle_dec c x) as [Cx|Cx].
    + rewrite !heat_liquid by (fold x; lra). rewrite (quad_split _ a b c CL). specialize (PL b c). lra.
    + rewrite (heat_both g a c) by (fold x; lra). fold x. destruct (Rle_dec b x) as [Bx|Bx].
      * rewrite heat_liquid by (fold x; lra). rewrite (quad_split _ a b x CL). specialize (PG x c).
        assert (0 <= quad (liquid_cp g) b x). { destruct (Req_dec b x) as [->|N]; [rewrite quad_nil; lra|]. specialize (PL b x). lra. } lra.
      * rewrite heat_both by (fold x; lra). fold x. rewrite (quad_split _ x b c CG). specialize (PG b c). lra.
  - destruct (Req_dec a b) as [E|N].
    + subst b. destruct (Req_dec a x) as [E|N']; [right; split; auto|]. left. rewrite !heat_gas by (fold x; lra). rewrite quad_nil. specialize (PG a c). lra.
    + left. rewrite !heat_gas by (fold x; lra). rewrite (quad_split _ a b c CG). specialize (PG b c). lra.
Qed.
Lemma heat_nil g a p : heat_per_kg g a a p = 0.
Proof.
  destruct (Rlt_dec a (boil_temp g p)). { rewrite heat_liquid, quad_nil by lra. ring. }
  destruct (Req_dec a (boil_temp g p)). { apply heat_none; lra. } rewrite heat_gas, quad_nil by lra. ring.
Qed.
Lemma heat_pos g lo hi p a b : warms g lo hi p -> lo <= a -> a < b -> b <= hi -> 0 < heat_per_kg g a b p.
Proof.
  intros W A L B. destruct (heat_more g lo hi p a a b W A (Rle_refl a) L B) as [H|[_ H]]; [now rewrite heat_nil in H|].
  rewrite heat_gas by lra. apply Rmult_lt_0_compat; [lra|]. apply quad_pos; [apply cubic_cont|lra|]. intros t T. apply W. lra.
Qed.
Lemma heat_colder g lo hi p a a' b : warms g lo hi p -> lo <= a' -> a' < a -> a < b -> b <= hi -> heat_per_kg g a b p < heat_per_kg g a' b p.
Proof.
  intros W A L AB B. pose proof (cubic_cont (lc0 g) (lc1 g) (lc2 g) (lc3 g)) as CL.
  pose proof (cubic_cont (gc0 g) (gc1 g) (gc2 g) (gc3 g)) as CG. fold (liquid_cp g) in CL. fold (gas_cp g) in CG. set (x := boil_temp g p) in *.
  destruct W as [W1 W2].
  assert (PL : forall u v, lo <= u -> u < v -> v <= hi -> 0 < quad (liquid_cp g) u v). { intros u v U V V2. apply quad_pos; auto. intros t T. apply W1. lra. }
  assert (PG : forall u v, lo <= u -> u < v -> v <= hi -> 0 < quad (gas_cp g) u v). { intros u v U V V2. apply quad_pos; auto. intros t T. apply W1. lra. }
  destruct (Rle_dec b x) as [Bx|Bx].
  - rewrite !heat_liquid by (fold x; lra). rewrite (quad_split _ a' a b CL). specialize (PL a' a). lra.
  - destruct (Rlt_dec a x) as [Ax|Ax].
    + rewrite !heat_both by (fold x; lra). fold x. rewrite (quad_split _ a' a x CL). specialize (PL a' a). lra.
    + rewrite (heat_gas g a b) by (fold x; lra). destruct (Rlt_dec a' x) as [Ax'|Ax'].
      * rewrite heat_both by (fold x; lra). fold x. rewrite (quad_split _ x a b CG). specialize (PL a' x).
        assert (0 <= quad (gas_cp g) x a). { destruct (Req_dec x a) as [->|N]; [rewrite quad_nil; lra|]. specialize (PG x a). lra. } lra.
      * rewrite heat_gas by (fold x; lra). rewrite (quad_split _ a' a b CG). specialize (PG a' a). lra.
Qed.
Lemma h2_warms p : 0 < p <= 1200000 -> warms liquid_h2 15 300 p.
Proof.
  intro P. split.
  - intros t T. unfold liquid_cp, gas_cp, cubic, liquid_h2. cbn [lc0 lc1 lc2 lc3 gc0 gc1 gc2 gc3]. split.
    + replace (476 / 100000 * t ^ 3 + -272 / 1000 * t ^ 2 + 556 / 100 * t + -312 / 10) with
        (7065 / 1000 + (t - 15) * (476 / 100000 * (t ^ 2 + 15 * t + 225) - 272 / 1000 * (t + 15) + 556 / 100)) by field.
      assert (0 < 476 / 100000 * (t ^ 2 + 15 * t + 225) - 272 / 1000 * (t + 15) + 556 / 100) as Q by (pose proof (pow2_ge_0 (t - 21)); nra).
      pose proof (Rmult_lt_0_compat (t - 15) _ ltac:(lra) Q). lra.
    + replace (-516 / 1000000000 * t ^ 3 + 221 / 1000000 * t ^ 2 + -739 / 100000 * t + 103 / 10) with
        (t ^ 2 * (221 / 1000000 - 516 / 1000000000 * t) + (103 / 10 - 739 / 100000 * t)) by field.
      assert (0 <= t ^ 2 * (221 / 1000000 - 516 / 1000000000 * t)) by (apply Rmult_le_pos; [apply pow2_ge_0|lra]). lra.
  - unfold latent, cubic, liquid_h2. cbn [h0 h1 h2 h3].
    assert (0 <= p ^ 2) by apply pow2_ge_0. assert (p ^ 2 <= 1200000 ^ 2) by nra. assert (p ^ 3 <= 1200000 ^ 3). { replace (p ^ 3) with (p * p ^ 2) by ring. replace (1200000 ^ 3) with (1200000 * 1200000 ^ 2) by ring. apply Rmult_le_compat; lra. } lra.
Qed.
Lemma ln10_pos : 0 < ln 10. Proof. rewrite <- ln_1. apply ln_increasing; lra. Qed.

(** ** Leads *)
Lemma q_arg m c h : h - c <> 0 -> 2 * (1 / (h - c) * quad (fun t => m_k m t / m_s m t) c h) * (h - c) = 2 * quad (fun t => m_k m t / m_s m t) c h.
Proof. intro H. field. exact H. Qed.
Lemma ratio_cont m : conducts m -> cont (fun t => m_k m t / m_s m t).
Proof.
  intros (K & S & CK & CS). apply cont_pt. intro x. apply (continuity_pt_div (m_k m) (m_s m)); auto. specialize (S x). lra.
Qed.
Lemma ratio_pos m : conducts m -> forall t, 0 < m_k m t / m_s m t.
Proof. intros (K & S & _) t. now apply Rdiv_lt_0_compat. Qed.
Lemma q_min_ok m c h i : conducts m -> c < h -> q_min m c h i = Ok (i * sqrt (2 * quad (fun t => m_k m t / m_s m t) c h)).
Proof.
  intros M L. unfold q_min. destruct (Req_EM_T (h - c) 0); [lra|]. unfold q_val. rewrite q_arg by lra.
  pose proof (quad_pos _ c h (ratio_cont m M) L (fun x _ => ratio_pos m M x)) as Q.
  destruct (Rltb _ 0) eqn:E; [apply Rltb_true in E; lra|reflexivity].
Qed.
Lemma flat_conducts k s rho : 0 < k -> 0 < s -> conducts (flat k s rho).
Proof. intros K S. repeat split; cbn; intros; auto; apply continuity_pt_const; now intros ? ?. Qed.
Lemma flat_q k s rho c h i : 0 < k -> 0 < s -> c < h -> q_min (flat k s rho) c h i = Ok (i * sqrt (2 * (k / s) * (h - c))).
Proof. intros K S L. rewrite q_min_ok by (auto using flat_conducts). cbn [m_k m_s flat]. rewrite quad_const. do 3 f_equal. ring. Qed.
Lemma flat_la k s rho c h i q : i <> 0 -> la_ratio (flat k s rho) c h i q = Ok (s * q / i ^ 2).
Proof.
  intro I. unfold la_ratio. destruct (Req_EM_T (i ^ 2) 0) as [Z|Z]; [exfalso; apply (pow_nonzero i 2 I Z)|]. cbn [m_s flat].
  rewrite (quad_ext _ (fun _ => 0)). 2:{ intro x. unfold derivative. cbn. field. } rewrite quad_const. do 2 f_equal. ring.
Qed.
Lemma rect_sqrt s x y : 0 <= s -> x = y -> s * x = s * y. Proof. congruence. Qed.
(** the square root at the heart of a lead of constant material *)
Definition root (k s dt : R) : R := sqrt (2 * (k / s) * dt).
Lemma root_pos k s dt : 0 < k -> 0 < s -> 0 < dt -> 0 < root k s dt.
Proof. intros K S D. apply sqrt_lt_R0. apply Rmult_lt_0_compat; [|lra]. assert (0 < k / s) by now apply Rdiv_lt_0_compat. lra. Qed.
Lemma root_sq k s dt : 0 < k -> 0 < s -> 0 <= dt -> root k s dt * root k s dt = 2 * (k / s) * dt.
Proof. intros K S D. apply sqrt_sqrt. apply Rmult_le_pos; [|lra]. assert (0 < k / s) by now apply Rdiv_lt_0_compat. lra. Qed.
Lemma flat_init k s rho c h i l : 0 < k -> 0 < s -> c < h -> 0 < i -> 0 < l ->
  let r := root k s (h - c) in let a := l * i / (s * r) in
  initialize_lead (new_lead c h i l (flat k s rho)) =
    Ok (Lead c h i l (flat k s rho) (a * l * rho) a i (i * r) 0 (i * r / 2) (Some (i * r / 2))).
Proof.
  intros K S L I P r a. unfold initialize_lead. cbn [le_mat le_cold le_hot le_cur le_len new_lead le_un le_q le_own]. rewrite flat_q by assumption. cbn [bind].
  rewrite flat_la by lra. cbn [bind]. fold (root k s (h - c)). fold r. pose proof (root_pos k s (h - c) K S ltac:(lra)) as R0. fold r in R0.
  assert (0 < s * (i * r) / i ^ 2). { apply Rdiv_lt_0_compat; [|apply pow_lt; lra]. apply Rmult_lt_0_compat; [lra|]. now apply Rmult_lt_0_compat. }
  destruct (Req_EM_T _ 0); [lra|]. unfold q_unpowered. cbn [le_len le_mat le_cold le_hot le_area le_mass le_cur le_opt le_min le_un flat m_k m_rho].
  destruct (Req_EM_T l 0); [lra|]. cbn [bind fst]. rewrite quad_const.
  assert (A : l / (s * (i * r) / i ^ 2) = a). { unfold a. field. repeat split; lra. }
  rewrite A. pose proof (root_sq k s (h - c) K S ltac:(lra)) as Q. fold r in Q.
  assert (U : (h - c) * k * a / l = i * r / 2). { unfold a. transitivity (i * (k / s * (h - c)) / r); [field; repeat split; lra|]. replace (k / s * (h - c)) with (r * r / 2) by lra. field. lra. }
  rewrite U. reflexivity.
Qed.
Lemma flat_test k s rho c h i l tm x1 x2 x3 x4 x5 x6 x7 : 0 < k -> 0 < s -> c < h -> h < tm -> 0 < i ->
  test_length (Lead c h x1 l (flat k s rho) x2 x3 x4 x5 x6 x7 None) i tm = Ok (i * root k s (tm - h), i * root k s (tm - c), x3 * s / i * (root k s (tm - h) + root k s (tm - c))) /\
  forall y, test_length (Lead c h x1 l (flat k s rho) x2 x3 x4 x5 x6 x7 y) i tm = test_length (Lead c h x1 l (flat k s rho) x2 x3 x4 x5 x6 x7 None) i tm.
Proof.
  intros K S L T I. split; [|reflexivity]. unfold test_length. cbn [le_mat le_hot le_cold le_area]. rewrite !flat_q by lra. cbn [bind].
  rewrite !flat_la by lra. cbn [bind]. fold (root k s (tm - h)) (root k s (tm - c)). do 2 f_equal. field. lra.
Qed.
Lemma root_mono k s a b : 0 < k -> 0 < s -> 0 <= a -> a <= b -> root k s a <= root k s b.
Proof. intros K S A B. unfold root. assert (0 < k / s) by now apply Rdiv_lt_0_compat. apply sqrt_le_1; nra. Qed.
(** any lead whose trial length starts more than 1% too long, and never shrinks as the guess grows, is never answered *)
Lemma loop_stuck l i : 0 < le_len l -> 0 < le_hot l ->
  (forall tm, 2 * le_hot l <= tm -> exists wq cq tl, test_length l i tm = Ok (wq, cq, tl) /\ 101 / 100 * le_len l < tl) ->
  forall n tm diff, 2 * le_hot l <= tm -> lead_loop n l i tm diff false = None.
Proof.
  intros P H T. induction n as [|n IH]; intros tm diff G; [reflexivity|]. cbn [lead_loop]. destruct (T tm G) as (wq & cq & tl & -> & B).
  destruct (Req_EM_T (le_len l) 0); [lra|]. replace (Rltb (le_len l) tl) with true by (symmetry; apply Rltb_true; lra).
  assert (E : 1 / 100 < Rabs ((tl - le_len l) / le_len l)).
  { rewrite Rabs_pos_eq. 2:{ apply Rlt_le, Rdiv_lt_0_compat; lra. } apply Rmult_lt_reg_r with (le_len l); [lra|].
    replace ((tl - le_len l) / le_len l * le_len l) with (tl - le_len l) by (field; lra). lra. }
  replace (Rltb (1 / 100) _) with true by (symmetry; apply Rltb_true; exact E). apply IH. lra.
Qed.
