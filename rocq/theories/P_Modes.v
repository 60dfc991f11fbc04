(** * Dynamic stability: proofs *)
From Coq Require Import Reals List Bool Lra Psatz Arith Lia Permutation.
From Verif Require Import PyBase M_Opt P_Opt M_Stab P_Stab M_Modes S_Modes.
Import ListNotations.
Local Open Scope R_scope.
Local Open Scope list_scope.

Lemma c_eq (x y : C) : fst x = fst y -> snd x = snd y -> x = y.
Proof. destruct x, y. cbn. congruence. Qed.
Ltac c_ring := intros; apply c_eq; unfold csub, cadd, cmul, cneg, c0, c1, real; cbn [fst snd]; ring.
Lemma C_ring : ring_theory c0 c1 cadd cmul csub cneg (@eq C).
Proof. constructor; c_ring. Qed.
Add Ring Cring : C_ring.
Lemma real_add x y : real (x + y) = cadd (real x) (real y). Proof. unfold real, cadd; cbn; f_equal; ring. Qed.
Lemma real_mul x y : real (x * y) = cmul (real x) (real y). Proof. unfold real, cmul; cbn; f_equal; ring. Qed.
Lemma real_opp x : real (- x) = cneg (real x). Proof. unfold real, cneg; cbn; f_equal; ring. Qed.
Lemma real_0 : real 0 = c0. Proof. reflexivity. Qed.

Lemma at_add p : forall q z, at_ (padd p q) z = cadd (at_ p z) (at_ q z).
Proof.
  induction p as [|a p IH]; intros [|b q] z; cbn [padd at_]; try ring.
  rewrite IH, real_add. ring.
Qed.
Lemma at_scale a q z : at_ (map (Rmult a) q) z = cmul (real a) (at_ q z).
Proof. induction q as [|b q IH]; cbn [map at_]; [ring|]. rewrite IH, real_mul. ring. Qed.
Lemma at_neg q z : at_ (pneg q) z = cneg (at_ q z).
Proof. unfold pneg. induction q as [|b q IH]; cbn [map at_]; [ring|]. rewrite IH, real_opp. ring. Qed.
Lemma at_conv p q z : at_ (pconv p q) z = cmul (at_ p z) (at_ q z).
Proof.
  induction p as [|a p IH]; [cbn [pconv at_]; ring|]. cbn [pconv]. rewrite at_add, at_scale. cbn [at_].
  destruct p as [|b p]; [cbn [at_]; ring|]. rewrite <- IH || idtac. cbn [at_] in *. rewrite IH, real_0. ring.
Qed.
Lemma trim_cons a b r : trim (a :: b :: r) = match trim (b :: r) with [c] => if zero c then [a] else [a; c] | r' => a :: r' end.
Proof. reflexivity. Qed.
Lemma trim_some b r : exists c s, trim (b :: r) = c :: s.
Proof.
  revert b. induction r as [|d r IH]; intro b; [cbn; eauto|]. rewrite trim_cons. destruct (IH d) as (c & s & ->). destruct s; [destruct (zero c); eauto | eauto].
Qed.
Lemma at_trim p z : at_ (trim p) z = at_ p z.
Proof.
  induction p as [|a p IH]; [reflexivity|]. destruct p as [|b r]; [reflexivity|]. rewrite trim_cons.
  destruct (trim_some b r) as (c & s & E). rewrite E in *. destruct s as [|d s].
  - unfold zero. destruct (Req_EM_T c 0) as [Z|Z]; cbn [at_] in *; rewrite <- IH; [rewrite Z, real_0; ring | ring].
  - cbn [at_] in *. rewrite <- IH. reflexivity.
Qed.
Lemma at_polyadd p q z : at_ (polyadd p q) z = cadd (at_ p z) (at_ q z).
Proof. unfold polyadd. now rewrite at_trim, at_add, !at_trim. Qed.
Lemma at_polysub p q z : at_ (polysub p q) z = csub (at_ p z) (at_ q z).
Proof. unfold polysub. rewrite at_trim, at_add, at_neg, !at_trim. ring. Qed.
Lemma at_polymul p q z : at_ (polymul p q) z = cmul (at_ p z) (at_ q z).
Proof. unfold polymul. now rewrite at_trim, at_conv, !at_trim. Qed.
Lemma at_determinant A B C D E F G H I z :
  at_ (determinant A B C D E F G H I) z = det3 (at_ A z) (at_ B z) (at_ C z) (at_ D z) (at_ E z) (at_ F z) (at_ G z) (at_ H z) (at_ I z).
Proof. unfold determinant, det3. rewrite !at_polyadd, !at_polymul, !at_polysub, !at_polymul. reflexivity. Qed.

(** coefficients: reading past the end gives zero *)
Definition co (p : list R) (n : nat) : R := nth n p 0.
Lemma co_padd p : forall q n, co (padd p q) n = co p n + co q n.
Proof.
  unfold co. induction p as [|a p IH]; intros [|b q] [|n]; cbn [padd nth]; try lra. apply IH.
Qed.
Lemma co_neg p n : co (pneg p) n = - co p n.
Proof. unfold co, pneg. revert n. induction p as [|a p IH]; intros [|n]; cbn [map nth]; try lra. apply IH. Qed.
Lemma co_scale a p n : co (map (Rmult a) p) n = a * co p n.
Proof. unfold co. revert n. induction p as [|b p IH]; intros [|n]; cbn [map nth]; try lra. apply IH. Qed.
Lemma co_trim p n : co (trim p) n = co p n.
Proof.
  revert n. induction p as [|a p IH]; intro n; [reflexivity|]. destruct p as [|b r]; [reflexivity|]. rewrite trim_cons.
  destruct (trim_some b r) as (c & s & E). rewrite E in *. destruct s as [|d s].
  - destruct n as [|n]; [destruct (zero c); reflexivity|]. change (co (a :: b :: r) (S n)) with (co (b :: r) n). rewrite <- IH.
    unfold zero. destruct (Req_EM_T c 0) as [Z|Z]; [rewrite Z; unfold co; destruct n as [|[|n]]; reflexivity | reflexivity].
  - destruct n as [|n]; [reflexivity|]. change (co (a :: b :: r) (S n)) with (co (b :: r) n). rewrite <- IH. reflexivity.
Qed.
(** convolution, coefficient by coefficient *)
Fixpoint conv_co (p : list R) (q : nat -> R) (n : nat) : R :=
  match p with [] => 0 | a :: p' => a * q n + match n with O => 0 | S m => conv_co p' q m end end.
Lemma co_conv p q n : co (pconv p q) n = conv_co p (co q) n.
Proof.
  revert n. induction p as [|a p IH]; intro n; [destruct n; reflexivity|]. cbn [pconv conv_co]. rewrite co_padd, co_scale. f_equal.
  destruct p as [|b p]; [destruct n as [|[|n]]; reflexivity|]. destruct n as [|n]; [reflexivity|]. rewrite <- IH. reflexivity.
Qed.
(** [conv_co] only looks at the coefficients of the first list *)
Lemma conv_co_zero p q n : (forall i, co p i = 0) -> conv_co p q n = 0.
Proof.
  revert n. induction p as [|a p IH]; intros n Z; [reflexivity|]. cbn [conv_co]. pose proof (Z 0%nat) as Z0. cbn in Z0. rewrite Z0.
  destruct n as [|n]; [lra|]. rewrite IH; [lra|]. intro i. exact (Z (S i)).
Qed.
Lemma conv_co_ext p : forall p' q n, (forall i, co p i = co p' i) -> conv_co p q n = conv_co p' q n.
Proof.
  induction p as [|a p IH]; intros p' q n Z.
  - symmetry. apply conv_co_zero. intro i. rewrite <- Z. destruct i; reflexivity.
  - destruct p' as [|b p']; [apply conv_co_zero; intro i; rewrite Z; destruct i; reflexivity|]. cbn [conv_co]. pose proof (Z 0%nat) as Z0. cbn in Z0. rewrite Z0. f_equal.
    destruct n as [|n]; [reflexivity|]. apply IH. intro i. exact (Z (S i)).
Qed.
Lemma conv_co_ext2 p : forall q q' n, (forall i, q i = q' i) -> conv_co p q n = conv_co p q' n.
Proof. induction p as [|a p IH]; intros q q' n Z; [reflexivity|]. cbn [conv_co]. rewrite Z. f_equal. destruct n; [reflexivity|]. now apply IH. Qed.
Lemma co_polyadd p q n : co (polyadd p q) n = co p n + co q n.
Proof. unfold polyadd. now rewrite co_trim, co_padd, !co_trim. Qed.
Lemma co_polysub p q n : co (polysub p q) n = co p n - co q n.
Proof. unfold polysub. rewrite co_trim, co_padd, co_neg, !co_trim. lra. Qed.
Lemma co_polymul p q n : co (polymul p q) n = conv_co p (co q) n.
Proof.
  unfold polymul. rewrite co_trim, co_conv. rewrite (conv_co_ext (trim p) p) by (intro; apply co_trim). apply conv_co_ext2. intro. apply co_trim.
Qed.
(** a coefficient that is not zero is inside a trimmed list, and the last coefficient kept is not zero *)
Lemma co_inside p n : co p n <> 0 -> nth_error p n = Some (co p n).
Proof.
  unfold co. revert n. induction p as [|a p IH]; intros [|n] H; cbn in *; try (contradiction H; reflexivity); [reflexivity|]. now apply IH.
Qed.
Lemma trim_last p n : nth_error (trim p) (S n) <> None -> exists m, (S n <= m)%nat /\ co p m <> 0.
Proof.
  revert n. induction p as [|a p IH]; intros n H; [destruct n; contradiction H; reflexivity|]. destruct p as [|b r]; [destruct n; contradiction H; reflexivity|].
  rewrite trim_cons in H. destruct (trim_some b r) as (c & s & E). rewrite E in *. destruct s as [|d s].
  - unfold zero in H. destruct (Req_EM_T c 0) as [Z|Z]; [destruct n; contradiction H; reflexivity|]. destruct n as [|n]; [|destruct n; contradiction H; reflexivity].
    exists 1%nat. split; [lia|]. change (co (a :: b :: r) 1) with (co (b :: r) 0). rewrite <- co_trim, E. exact Z.
  - change (nth_error (a :: c :: d :: s) (S n)) with (nth_error (c :: d :: s) n) in H.
    destruct n as [|n].
    + destruct (IH 0%nat) as (m & L & M); [discriminate|]. exists (S m). split; [lia | exact M].
    + destruct (IH n H) as (m & L & M). exists (S m). split; [lia | exact M].
Qed.
Lemma trim_end p n : nth_error (trim p) (S n) <> None -> (forall m, (S n < m)%nat -> co p m = 0) -> co p (S n) <> 0.
Proof.
  intros H Z E. destruct (trim_last p n H) as (m & L & M). destruct (Nat.eq_dec m (S n)) as [->|N]; [contradiction|]. apply M, Z. lia.
Qed.
From Verif Require Import S_Wing P_Wing.
Lemma second_moment cr ct h : h <> 0 -> integral (fun y => straight cr ct h y * y ^ 2) 0 h (h ^ 3 * (cr + 3 * ct) / 12).
Proof.
  intro H. exists (fun t => cr / 3 * t ^ 3 + (ct - cr) / h / 4 * t ^ 4). split.
  - intro t. rewrite straight_affine by assumption.
    replace ((cr + (ct - cr) / h * t) * t ^ 2) with (cr / 3 * (INR 3 * t ^ pred 3) + (ct - cr) / h / 4 * (INR 4 * t ^ pred 4)) by (simpl; field; assumption).
    apply derivable_pt_lim_plus; [apply (derivable_pt_lim_scal (fun t => t ^ 3)) | apply (derivable_pt_lim_scal (fun t => t ^ 4))]; apply derivable_pt_lim_pow.
  - field. assumption.
Qed.
Lemma first_moment cr ct h : h <> 0 -> integral (fun y => straight cr ct h y * y) 0 h (h ^ 2 * (cr + 2 * ct) / 6).
Proof.
  intro H. replace (h ^ 2 * (cr + 2 * ct) / 6) with (0 * (h - 0) + cr * (h ^ 2 - 0 ^ 2) / 2 + (ct - cr) / h * (h ^ 3 - 0 ^ 3) / 3) by (field; assumption).
  apply integral_quadratic. intro t. rewrite straight_affine by assumption. ring.
Qed.
Lemma half_power_pos x : 0 <= x -> half_power x = Some (sqrt x).
Proof. intro H. unfold half_power. replace (Rltb x 0) with false by (symmetry; apply Rltb_false; lra). reflexivity. Qed.
Lemma half_power_neg x : x < 0 -> half_power x = None.
Proof. intro H. unfold half_power. replace (Rltb x 0) with true by (symmetry; apply Rltb_true; lra). reflexivity. Qed.
Lemma sqrt_prod_sq x y z : 0 <= x -> 0 <= y -> 0 <= z -> x * y = z ^ 2 -> sqrt x * sqrt y = z.
Proof. intros X Y Z E. rewrite <- sqrt_mult by assumption. rewrite E. replace (z ^ 2) with (z * z) by ring. now apply sqrt_square. Qed.
Lemma second_order_of a b c w zeta : a <> 0 -> 0 < w -> b = a * (2 * zeta * w) -> c = a * w ^ 2 -> second_order a b c w zeta.
Proof. intros A W B C. split; [assumption|]. split; [assumption|]. intro s. rewrite B, C. ring. Qed.

(** complex numbers *)
Lemma c_norm r : r <> c0 -> 0 < fst r ^ 2 + snd r ^ 2.
Proof.
  destruct r as [x y]. unfold c0. cbn. intro H. destruct (Req_dec x 0) as [->|X]; [destruct (Req_dec y 0) as [->|Y]; [contradiction H; reflexivity|]|].
  - assert (0 < y * y) by (apply Rsqr_pos_lt; assumption). lra.
  - assert (0 < x * x) by (apply Rsqr_pos_lt; assumption). nra.
Qed.
Lemma cinv_r r : r <> c0 -> cmul r (cinv r) = c1.
Proof. intro H. pose proof (c_norm r H). apply c_eq; unfold cmul, cinv, c1; cbn [fst snd]; field; lra. Qed.
Lemma cmul_zero x y : cmul x y = c0 -> x = c0 \/ y = c0.
Proof.
  intro H. destruct (Req_dec (fst x) 0) as [A|A]; [destruct (Req_dec (snd x) 0) as [B|B]; [left; now apply c_eq|]|]; right;
  (assert (N : x <> c0) by (intro E; rewrite E in *; cbn in *; congruence));
  (replace y with (cmul (cmul x y) (cinv x)) by (transitivity (cmul y (cmul x (cinv x))); [ring | rewrite (cinv_r x N); ring]));
  rewrite H; ring.
Qed.
Lemma factors_root rs r : In r rs -> factors rs r = c0.
Proof. induction rs as [|x rs IH]; intros []; cbn [factors]; [subst; ring | rewrite IH by assumption; ring]. Qed.
Fixpoint cpow (z : C) (n : nat) : C := match n with O => c1 | S m => cmul z (cpow z m) end.
Lemma at_app p q z : at_ (p ++ q) z = cadd (at_ p z) (cmul (cpow z (length p)) (at_ q z)).
Proof. induction p as [|a p IH]; cbn [app at_ cpow length]; [ring|]. rewrite IH. ring. Qed.
(** a polynomial read in the other direction: roots become reciprocals *)
Lemma at_rev p z : z <> c0 -> cmul (cpow z (length p)) (at_ p (cinv z)) = cmul z (at_ (rev p) z).
Proof.
  intro N. induction p as [|a p IH]; cbn [at_ cpow length rev]; [ring|]. rewrite at_app, rev_length. cbn [at_].
  transitivity (cadd (cmul z (cmul (cpow z (length p)) (real a))) (cmul (cmul z (cinv z)) (cmul (cpow z (length p)) (at_ p (cinv z))))); [ring|].
  rewrite (cinv_r z N), IH. ring.
Qed.
Lemma cpow_nonzero z n : z <> c0 -> cpow z n <> c0.
Proof.
  intros N. induction n as [|n IH]; cbn [cpow]; [intro H; injection H; lra|]. intro H. destruct (cmul_zero _ _ H); contradiction.
Qed.
Lemma at_zero_first p : at_ p c0 = real (co p 0).
Proof. destruct p; cbn [at_]; unfold co; cbn [nth]; [reflexivity | ring]. Qed.
Lemma reciprocal_root p r : r <> c0 -> at_ (rev p) r = c0 -> at_ p (cinv r) = c0.
Proof.
  intros N H. pose proof (at_rev p r N) as E. rewrite H in E. replace (cmul r c0) with c0 in E by ring. apply cmul_zero in E as [E|E]; [|assumption].
  exfalso. now apply (cpow_nonzero r (length p) N).
Qed.
Lemma cabs_inv r : r <> c0 -> cabs (cinv r) = / sqrt (im r ^ 2 + re r ^ 2).
Proof.
  intro N. pose proof (c_norm r N) as P. unfold cabs, cinv, re, im. cbn [fst snd]. set (n := fst r ^ 2 + snd r ^ 2) in *.
  replace ((fst r / n) ^ 2 + (- snd r / n) ^ 2) with (/ n) by (unfold n; field; fold n; lra).
  rewrite sqrt_inv. f_equal. f_equal. unfold n. ring.
Qed.

(** sorting *)
Definition down (x y : C) : Prop := cltb y x = true.
Lemma cltb_irrefl x : cltb x x = false.
Proof. unfold cltb. replace (Rltb (re x) (re x)) with false by (symmetry; apply Rltb_false; lra). destruct Req_EM_T; [apply Rltb_false; lra | reflexivity]. Qed.
Lemma cltb_spec x y : cltb x y = true <-> re x < re y \/ (re x = re y /\ im x < im y).
Proof.
  unfold cltb. destruct (Rltb (re x) (re y)) eqn:E.
  - apply Rltb_true in E. split; auto.
  - apply Rltb_false in E. destruct (Req_EM_T (re x) (re y)) as [Q|Q].
    + rewrite Rltb_true. split; [auto | intros [H|[_ H]]; [lra | exact H]].
    + split; [discriminate | intros [H|[H _]]; [lra | contradiction]].
Qed.
Lemma insert_perm x l : Permutation (x :: l) (insert x l).
Proof.
  induction l as [|y l IH]; cbn [insert]; [reflexivity|]. destruct (cltb y x); [reflexivity|].
  etransitivity; [apply perm_swap|]. now constructor.
Qed.
Lemma sort_perm l : Permutation l (sort_down l).
Proof. induction l as [|x l IH]; [constructor|]. cbn [sort_down]. etransitivity; [constructor; exact IH | apply insert_perm]. Qed.
Fixpoint descending (l : list C) : Prop := match l with [] => True | x :: r => Forall (fun y => cltb x y = false) r /\ descending r end.
Lemma cltb_trans_false x y z : cltb x y = false -> cltb y z = false -> cltb x z = false.
Proof.
  intros A B. destruct (cltb x z) eqn:E; [|reflexivity]. apply cltb_spec in E.
  assert (NA : ~ (re x < re y \/ (re x = re y /\ im x < im y))) by (rewrite <- cltb_spec, A; discriminate).
  assert (NB : ~ (re y < re z \/ (re y = re z /\ im y < im z))) by (rewrite <- cltb_spec, B; discriminate).
  exfalso. destruct E as [E|[E F]]; destruct (Rtotal_order (re x) (re y)) as [?|[?|?]]; destruct (Rtotal_order (re y) (re z)) as [?|[?|?]]; try tauto; try lra;
  destruct (Rtotal_order (im x) (im y)) as [?|[?|?]]; destruct (Rtotal_order (im y) (im z)) as [?|[?|?]]; try tauto; lra.
Qed.
Lemma cltb_asym x y : cltb x y = true -> cltb y x = false.
Proof. intro H. destruct (cltb y x) eqn:E; [|reflexivity]. apply cltb_spec in H, E. lra. Qed.
Lemma insert_sorted x l : descending l -> descending (insert x l).
Proof.
  induction l as [|y l IH]; intro D; [cbn; auto|]. destruct D as [F D]. cbn [insert]. destruct (cltb y x) eqn:E.
  - split; [|split; assumption]. constructor; [now apply cltb_asym|]. eapply Forall_impl; [|exact F]. cbn. intros z Z. apply cltb_trans_false with y; [now apply cltb_asym | exact Z].
  - split; [|now apply IH]. apply (Permutation_Forall (insert_perm x l)). now constructor.
Qed.
Lemma sort_sorted l : descending (sort_down l).
Proof. induction l as [|x l IH]; [exact I|]. now apply insert_sorted. Qed.
Fixpoint strictly (l : list C) : Prop := match l with [] => True | x :: r => Forall (fun y => cltb y x = true) r /\ strictly r end.
Lemma sorted_unique l : forall m, Permutation l m -> descending l -> strictly m -> l = m.
Proof.
  induction l as [|x l IH]; intros m P D S; [now apply Permutation_nil in P|].
  destruct m as [|y m]; [apply Permutation_sym, Permutation_nil in P; discriminate|]. destruct D as [F D], S as [G S].
  assert (E : x = y).
  { assert (I : In x (y :: m)) by (apply (Permutation_in _ P); now left). destruct I as [I|I]; [congruence|].
    assert (J : In y (x :: l)) by (apply (Permutation_in _ (Permutation_sym P)); now left). destruct J as [J|J]; [assumption|].
    rewrite Forall_forall in F, G. pose proof (F y J). pose proof (G x I). congruence. }
  subst y. f_equal. apply IH; [now apply Permutation_cons_inv in P | assumption | assumption].
Qed.
Lemma sort_is l m : Permutation l m -> strictly m -> sort_down l = m.
Proof.
  intros P S. apply sorted_unique; [|apply sort_sorted | assumption]. etransitivity; [symmetry; apply sort_perm | exact P].
Qed.
(** coefficients of the two determinants *)
Ltac coeffs := unfold determinant; rewrite ?co_polyadd, ?co_polymul; cbn [conv_co]; rewrite ?co_polysub, ?co_polymul; cbn [conv_co co nth].
Lemma lateral_co i n : co (lateral_total i) n =
  let q := 1 / 2 * t_rho i * t_V i ^ 2 in let k := t_b i * (1 / 2) / t_V i in
  let x := t_Ix i / t_S i / q / t_b i in let y := - t_J i / t_S i / q / t_b i in let z := t_Iz i / t_S i / q / t_b i in
  let mu := t_m i * t_V i / t_S i / q in
  match n with
  | 0%nat => 0
  | 1%nat => k * spiral_balance i
  | 2%nat => - k * t_clp i * (k * t_cnr i * t_cyb i + t_cnb i * mu) - x * t_cnb i * t_cypsi i - k * t_clr i * (- (k * t_cnp i * t_cyb i)) + y * t_cnb i * t_cyphi i
             - t_clb i * (- k * t_cnp i * mu - y * t_cypsi i + t_cyphi i * z)
  | 3%nat => - k * t_clp i * (- k * t_cnr i * mu - z * t_cyb i) + x * (k * t_cnr i * t_cyb i + t_cnb i * mu)
             - k * t_clr i * (k * t_cnp i * mu + y * t_cyb i) + y * (- (k * t_cnp i * t_cyb i)) - t_clb i * (y * mu)
  | 4%nat => - k * t_clp i * z * mu + x * (- k * t_cnr i * mu - z * t_cyb i) + k * t_clr i * y * mu + y * (k * t_cnp i * mu + y * t_cyb i)
  | 5%nat => (x * z - y * y) * mu
  | _ => 0
  end.
Proof.
  unfold lateral_total, spiral_balance. cbn zeta. destruct n as [|[|[|[|[|[|n]]]]]]; [coeffs; ring .. |].
  destruct n as [|n]; coeffs; ring.
Qed.
Lemma long_co i n : (4 <= n)%nat -> co (long_total i) n =
  let q := 1 / 2 * o_rho i * o_V i ^ 2 in
  let mu := o_m i * o_V i / o_S i / q in
  if Nat.eqb n 4 then mu * (mu - o_c i * (1 / 2) / o_V i * o_czad i) * (o_Iy i / o_S i / q / o_c i) else 0.
Proof.
  intro L. unfold long_total. cbn zeta. destruct n as [|[|[|[|[|n]]]]]; try lia; [coeffs; cbn [Nat.eqb]; ring|]. destruct n as [|n]; coeffs; cbn [Nat.eqb]; ring.
Qed.
Lemma at_quad1 a z : at_ [a] z = quad a 0 0 z. Proof. cbn [at_]. unfold quad. rewrite real_0. ring. Qed.
Lemma at_quad2 a b z : at_ [a; b] z = quad a b 0 z. Proof. cbn [at_]. unfold quad. rewrite real_0. ring. Qed.
Lemma at_quad3 a b c z : at_ [a; b; c] z = quad a b c z. Proof. cbn [at_]. unfold quad. ring. Qed.
Lemma lateral_at i z : t_V i <> 0 -> t_S i <> 0 -> t_rho i <> 0 -> t_b i <> 0 -> at_ (lateral_total i) z = lateral_det i z.
Proof.
  intros V S0 D B. unfold lateral_total, lateral_det. cbn zeta. rewrite at_determinant, !at_quad1, !at_quad2, !at_quad3.
  f_equal; f_equal; field; repeat split; assumption.
Qed.
Lemma long_at i z : o_V i <> 0 -> o_S i <> 0 -> o_rho i <> 0 -> o_c i <> 0 -> at_ (long_total i) z = long_det i z.
Proof.
  intros V S0 D B. unfold long_total, long_det. cbn zeta. rewrite at_determinant, !at_quad1, !at_quad2, !at_quad3.
  f_equal; f_equal; field; repeat split; assumption.
Qed.
Lemma total_is_trim i : exists p, lateral_total i = trim p. Proof. unfold lateral_total, determinant, polyadd. eexists. reflexivity. Qed.
Lemma total_is_trim' i : exists p, long_total i = trim p. Proof. unfold long_total, determinant, polyadd. eexists. reflexivity. Qed.
Lemma lateral_lead i : nth_error (lateral_total i) 5 = (if zero (co (lateral_total i) 5) then None else Some (co (lateral_total i) 5)).
Proof.
  unfold zero. destruct (Req_EM_T (co (lateral_total i) 5) 0) as [Z|Z]; [|now apply co_inside].
  destruct (nth_error (lateral_total i) 5) eqn:E; [|reflexivity]. exfalso. destruct (total_is_trim i) as [p P].
  assert (Q : forall m, co p m = co (lateral_total i) m) by (intro; rewrite P; now rewrite co_trim). rewrite P in E.
  apply (trim_end p 4); [rewrite E; discriminate | | rewrite Q; exact Z]. intros m M. rewrite Q, lateral_co. cbn zeta. destruct m as [|[|[|[|[|[|m]]]]]]; try lia. reflexivity.
Qed.
Lemma long_lead i : nth_error (long_total i) 4 = (if zero (co (long_total i) 4) then None else Some (co (long_total i) 4)).
Proof.
  unfold zero. destruct (Req_EM_T (co (long_total i) 4) 0) as [Z|Z]; [|now apply co_inside].
  destruct (nth_error (long_total i) 4) eqn:E; [|reflexivity]. exfalso. destruct (total_is_trim' i) as [p P].
  assert (Q : forall m, co p m = co (long_total i) m) by (intro; rewrite P; now rewrite co_trim). rewrite P in E.
  apply (trim_end p 3); [rewrite E; discriminate | | rewrite Q; exact Z]. intros m M. rewrite Q, long_co by lia. cbn zeta. destruct m as [|[|[|[|[|m]]]]]; try lia. reflexivity.
Qed.
(** a trimmed list with a coefficient at n and none beyond is the list of its coefficients *)
Lemma list_of_co p n : nth_error p n <> None -> nth_error p (S n) = None -> p = map (co p) (seq 0 (S n)).
Proof.
  revert n. induction p as [|a p IH]; intros n H E; [destruct n; contradiction H; reflexivity|]. cbn [seq map]. unfold co at 1. cbn [nth]. f_equal.
  destruct n as [|n].
  - destruct p; [reflexivity | discriminate E].
  - rewrite (IH n H E) at 1. cbn [seq map]. rewrite <- (seq_shift n 1), map_map. f_equal.
Qed.
Lemma lateral_list i : co (lateral_total i) 5 <> 0 -> lateral_total i = map (co (lateral_total i)) [0; 1; 2; 3; 4; 5]%nat.
Proof.
  intro H. apply (list_of_co _ 5); [rewrite (co_inside _ _ H); discriminate|]. destruct (nth_error (lateral_total i) 6) eqn:E; [|reflexivity]. exfalso.
  destruct (total_is_trim i) as [p P]. assert (Q : forall m, co p m = co (lateral_total i) m) by (intro; rewrite P; now rewrite co_trim). rewrite P in E.
  apply (trim_end p 5); [rewrite E; discriminate | |]; intros; rewrite Q, lateral_co; cbn zeta; [|reflexivity]. destruct m as [|[|[|[|[|[|m]]]]]]; try lia. reflexivity.
Qed.
Lemma at_div l p z : at_ (map (fun c => c / l) p) z = cmul (real (/ l)) (at_ p z).
Proof. induction p as [|a p IH]; cbn [map at_]; [ring|]. rewrite IH. unfold Rdiv. rewrite real_mul. ring. Qed.
Lemma lateral_roots np i : exact_roots np -> co (lateral_total i) 5 <> 0 -> co (lateral_total i) 1 <> 0 ->
  let rs := np (map (fun c => c / co (lateral_total i) 5) (lateral_total i)) in
  length rs = 4%nat /\ (forall r, In r rs -> r <> c0 /\ at_ (lateral_total i) (cinv r) = c0).
Proof.
  intros X N5 N1 rs. set (t := co (lateral_total i)) in *. assert (L : lateral_total i = [t 0; t 1; t 2; t 3; t 4; t 5]%nat) by (apply (lateral_list i N5)).
  assert (Z0 : t 0%nat = 0) by (unfold t; rewrite lateral_co; reflexivity).
  assert (P : map (fun c => c / t 5%nat) (lateral_total i) = [0] ++ (t 1%nat / t 5%nat) :: [t 2%nat / t 5%nat; t 3%nat / t 5%nat; t 4%nat / t 5%nat; t 5%nat / t 5%nat]).
  { rewrite L. cbn [map app]. rewrite Z0. f_equal. unfold Rdiv. ring. }
  assert (A : t 1%nat / t 5%nat <> 0) by (apply Rmult_integral_contrapositive; split; [assumption | now apply Rinv_neq_0_compat]).
  destruct (X [0] (t 1%nat / t 5%nat) [t 2%nat / t 5%nat; t 3%nat / t 5%nat; t 4%nat / t 5%nat; t 5%nat / t 5%nat] (Forall_cons _ eq_refl (Forall_nil _)) A) as [LEN RT].
  unfold rs in *. clear rs. rewrite P. split; [exact LEN|]. intros r I. pose proof (RT r) as E. rewrite (factors_root _ _ I) in E.
  assert (E0 : down_at ((t 1%nat / t 5%nat) :: [t 2%nat / t 5%nat; t 3%nat / t 5%nat; t 4%nat / t 5%nat; t 5%nat / t 5%nat]) r = c0) by (rewrite E; ring).
  assert (R0 : r <> c0).
  { intros ->. unfold down_at in E0. cbn [rev app] in E0. rewrite at_zero_first in E0. unfold co in E0. cbn [nth] in E0. injection E0. intro Q. replace (t 5%nat / t 5%nat) with 1 in Q by (field; assumption). lra. }
  split; [exact R0|]. unfold down_at in E0. apply reciprocal_root in E0; [|assumption].
  change ((t 1%nat / t 5%nat) :: [t 2%nat / t 5%nat; t 3%nat / t 5%nat; t 4%nat / t 5%nat; t 5%nat / t 5%nat]) with (map (fun c => c / t 5%nat) [t 1%nat; t 2%nat; t 3%nat; t 4%nat; t 5%nat]) in E0. rewrite at_div in E0.
  apply cmul_zero in E0 as [E0|E0]; [exfalso; injection E0; now apply Rinv_neq_0_compat|]. rewrite L.
  change (at_ [t 0; t 1; t 2; t 3; t 4; t 5]%nat (cinv r)) with (cadd (real (t 0%nat)) (cmul (cinv r) (at_ [t 1; t 2; t 3; t 4; t 5]%nat (cinv r)))). rewrite E0, Z0, real_0. ring.
Qed.
Lemma lateral_neutral np i : exact_roots np -> co (lateral_total i) 5 <> 0 -> co (lateral_total i) 1 = 0 ->
  (length (np (map (fun c : R => (c / co (lateral_total i) 5)%R) (lateral_total i))) <= 3)%nat.
Proof.
  intros X N5 N1. set (t := co (lateral_total i)) in *. assert (L : lateral_total i = [t 0; t 1; t 2; t 3; t 4; t 5]%nat) by (apply (lateral_list i N5)).
  assert (Z0 : t 0%nat = 0) by (unfold t; rewrite lateral_co; reflexivity). rewrite L. cbn [map]. rewrite Z0, N1. set (d := fun n => t n / t 5%nat).
  assert (ZZ : 0 / t 5%nat = 0) by (unfold Rdiv; ring). rewrite ZZ.
  assert (D5 : d 5%nat <> 0) by (unfold d; replace (t 5%nat / t 5%nat) with 1 by (field; assumption); lra).
  change (length (np [0%R; 0%R; d 2; d 3; d 4; d 5]) <= 3)%nat.
  destruct (Req_dec (d 2%nat) 0) as [E2|E2].
  2:{ destruct (X [0%R; 0%R] (d 2) [d 3; d 4; d 5])%nat as [LEN _]; [repeat constructor | assumption|]. cbn [app] in LEN. rewrite LEN. cbn. lia. }
  rewrite E2. destruct (Req_dec (d 3%nat) 0) as [E3|E3].
  2:{ destruct (X [0%R; 0%R; 0%R] (d 3) [d 4; d 5])%nat as [LEN _]; [repeat constructor | assumption|]. cbn [app] in LEN. rewrite LEN. cbn. lia. }
  rewrite E3. destruct (Req_dec (d 4%nat) 0) as [E4|E4].
  2:{ destruct (X [0%R; 0%R; 0%R; 0%R] (d 4) [d 5])%nat as [LEN _]; [repeat constructor | assumption|]. cbn [app] in LEN. rewrite LEN. cbn. lia. }
  rewrite E4. destruct (X [0%R; 0%R; 0%R; 0%R; 0%R] (d 5) [])%nat as [LEN _]; [repeat constructor | assumption|]. cbn [app] in LEN. rewrite LEN. cbn. lia.
Qed.
Lemma sort_length l : length (sort_down l) = length l.
Proof. symmetry. apply Permutation_length, sort_perm. Qed.
Lemma four (l : list C) : length l = 4%nat -> exists a b c d, l = [a; b; c; d].
Proof. destruct l as [|a [|b [|c [|d [|e l]]]]]; try discriminate. eauto. Qed.
Ltac nz := unfold Rdiv; repeat match goal with
  | |- _ * _ <> 0 => apply Rmult_integral_contrapositive; split
  | |- / _ <> 0 => apply Rinv_neq_0_compat
  | |- _ ^ _ <> 0 => apply pow_nonzero
  end; try assumption; try lra.
