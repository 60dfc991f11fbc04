(** * Proofs: costs *)
From Coq Require Import Reals List Bool Arith String Lra Lia Psatz.
From Verif Require Import PyBase M_Opt M_Drag M_Field M_Costs S_Costs P_Opt P_Field P_Super P_Aerodas.
Import ListNotations.
Local Open Scope R_scope.
Local Open Scope list_scope.

(** ** escalation *)
Fixpoint climbing (l : list (R * R)) : Prop := match l with a :: ((b :: _) as r) => fst a < fst b /\ climbing r | _ => True end.
Lemma part u v a b c : a < b -> a <= c <= b -> Rmin u v <= u + (v - u) / (b - a) * (c - a) <= Rmax u v.
Proof.
  intros A C. set (t := (c - a) / (b - a)). assert (T : t * (b - a) = c - a) by (unfold t; field; lra). assert (TB : 0 <= t <= 1) by (split; apply (Rmult_le_reg_r (b - a)); lra). replace (u + (v - u) / (b - a) * (c - a)) with (u + (v - u) * t) by (unfold t; field; lra). unfold Rmin, Rmax. destruct (Rle_dec u v); nra.
Qed.
Lemma interp_range lo hi x : forall l, l <> [] -> climbing l -> Forall (fun e => lo <= snd e <= hi) l -> lo <= interp x l <= hi.
Proof.
  induction l as [|[a b] l IH]; intros N C F; [contradiction|]. inversion F as [|? ? FB F']; subst. destruct l as [|[a' b'] l]; [exact FB|]. rewrite interp_cons. cbn [snd] in FB. destruct C as [C C']. cbn [fst] in C.
  destruct (Rltb x a) eqn:X; [exact FB|]. destruct (Rltb x a') eqn:Y; [|apply IH; [discriminate|exact C'|exact F']]. apply Rltb_false in X. apply Rltb_true in Y. inversion F' as [|? ? FB' _]; subst. cbn [snd] in FB'. pose proof (part b b' a a' x C ltac:(lra)) as P. unfold Rmin, Rmax in P. destruct (Rle_dec b b'); lra.
Qed.
Lemma escalation_range y : 66 / 1000 <= escalation y <= 25 / 10.
Proof. unfold escalation, escalation_table. apply interp_range; [discriminate|cbn [climbing fst]; repeat split; lra|]. repeat (apply Forall_cons; [cbn [snd]; lra|]). apply Forall_nil. Qed.
(** values that climb too *)
Fixpoint rising (l : list (R * R)) : Prop := match l with a :: ((b :: _) as r) => fst a < fst b /\ snd a <= snd b /\ rising r | _ => True end.
Lemma rising_first x : forall l a b, rising ((a, b) :: l) -> b <= interp x ((a, b) :: l).
Proof.
  induction l as [|[a' b'] l IH]; intros a b R; [cbn; lra|]. destruct R as (A & B & R'). cbn [fst snd] in A, B. rewrite interp_cons. destruct (Rltb x a) eqn:X; [lra|]. destruct (Rltb x a') eqn:Y.
  - apply Rltb_false in X. apply Rltb_true in Y. pose proof (part b b' a a' x A ltac:(lra)) as P. rewrite Rmin_left in P by lra. lra.
  - specialize (IH a' b' R'). lra.
Qed.
Lemma interp_rising x y : x <= y -> forall l, rising l -> interp x l <= interp y l.
Proof.
  intro L. induction l as [|[a b] l IH]; intro R; [cbn; lra|]. destruct l as [|[a' b'] l]; [cbn; lra|]. pose proof (rising_first y _ _ _ R) as RF. rewrite interp_cons. destruct (Rltb x a) eqn:X; [exact RF|]. apply Rltb_false in X. destruct R as (A & B & R'). cbn [fst snd] in A, B.
  rewrite interp_cons. rewrite (proj2 (Rltb_false y a)) by lra. destruct (Rltb x a') eqn:X'.
  - apply Rltb_true in X'. destruct (Rltb y a') eqn:Y.
    + assert (0 <= (b' - b) / (a' - a)) by (apply Rmult_le_pos; [lra|left; apply Rinv_0_lt_compat; lra]). nra.
    + pose proof (part b b' a a' x A ltac:(lra)) as P. rewrite Rmax_right in P by lra. pose proof (rising_first y _ _ _ R'). lra.
  - apply Rltb_false in X'. rewrite (proj2 (Rltb_false y a')) by lra. apply IH, R'.
Qed.
Lemma interp_skip x a b : forall l, l <> [] -> a <= x -> fst (hd (0, 0) l) <= x -> interp x ((a, b) :: l) = interp x l.
Proof. intros [|[a' b'] l] N A H; [contradiction|]. cbn [hd fst] in H. rewrite interp_cons. rewrite (proj2 (Rltb_false x a)), (proj2 (Rltb_false x a')) by lra. reflexivity. Qed.
Lemma escalation_1970 : escalation 1970 = 235 / 1000.
Proof.
  unfold escalation, escalation_table. do 11 (rewrite interp_skip by (try discriminate; cbn [hd fst]; lra)). rewrite interp_cons. rewrite (proj2 (Rltb_false 1970 _)) by lra. rewrite (proj2 (Rltb_true 1970 _)) by lra. field.
Qed.
Lemma escalation_rises x y : 1935 <= x -> x <= y -> escalation x <= escalation y.
Proof.
  intros X Y. unfold escalation, escalation_table. do 4 (rewrite (interp_skip x), (interp_skip y) by (try discriminate; cbn [hd fst]; lra)). apply interp_rising; [exact Y|]. cbn [rising fst snd]. repeat split; lra.
Qed.
Lemma dollars_pos p : 0 < dollars p.
Proof. unfold dollars. rewrite escalation_1970. pose proof (escalation_range (p_year p)). apply Rdiv_lt_0_compat; lra. Qed.
(** ** powers *)
Lemma pw_share a m m' : 0 < a < 1 -> 0 < m -> m <= m' -> pw m' a / m' <= pw m a / m.
Proof.
  intros A M L. rewrite !pw_pos by lra. assert (E : forall z, 0 < z -> Rpower z a / z = / Rpower z (1 - a)).
  { intros z Z. rewrite <- Rpower_Ropp. replace (- (1 - a)) with (a + - (1)) by ring. rewrite Rpower_plus, Rpower_Ropp, Rpower_1 by exact Z. reflexivity. }
  rewrite !E by lra. apply Rinv_le_contravar; [apply exp_pos|]. apply Rle_Rpower_l; lra.
Qed.
Lemma pw_share2 a n m m' : 0 < a < 1 -> 0 < n -> 0 < m -> m <= m' -> pw (n + m') a / m' <= pw (n + m) a / m.
Proof.
  intros A N M L. pose proof (pw_share a (n + m) (n + m') A ltac:(lra) ltac:(lra)) as S. set (f := pw (n + m) a) in *. set (g := pw (n + m') a) in *.
  assert (0 <= f) by apply pw_nonneg. replace (g / m') with (g / (n + m') * ((n + m') / m')) by (field; lra). replace (f / m) with (f / (n + m) * ((n + m) / m)) by (field; lra). apply Rmult_le_compat; [apply Rmult_le_pos; [apply pw_nonneg|left; apply Rinv_0_lt_compat; lra]| |exact S|].
  - apply Rlt_le, Rdiv_lt_0_compat; lra.
  - apply (Rmult_le_reg_r (m * m')); [nra|]. replace ((n + m') / m' * (m * m')) with ((n + m') * m) by (field; lra). replace ((n + m) / m * (m * m')) with ((n + m) * m') by (field; lra). nra.
Qed.
(** ** cash flow *)
Definition tidy (tab : list (R * R)) : Prop := Forall (fun e => 0 <= fst e <= 1 /\ 0 <= snd e) tab.
Lemma upto_eq tab t : forall s, fold_left (fun s e => if Rltb t (fst e) then s else s + snd e) tab s = s + sum (map (fun e => if Rltb t (fst e) then 0 else snd e) tab).
Proof. induction tab as [|e tab IH]; intro s; cbn [fold_left map sum]; [ring|]. rewrite IH. destruct (Rltb t (fst e)); ring. Qed.
Lemma upto_sum tab t : upto tab t = sum (map (fun e => if Rltb t (fst e) then 0 else snd e) tab).
Proof. unfold upto. rewrite upto_eq. ring. Qed.
Lemma upto_grows tab t t' : tidy tab -> t <= t' -> upto tab t <= upto tab t'.
Proof.
  intros T L. rewrite !upto_sum. induction T as [|e tab [_ P] _ IH]; cbn [map sum]; [lra|]. destruct (Rltb t (fst e)) eqn:A; destruct (Rltb t' (fst e)) eqn:B; try lra. apply Rltb_false in A. apply Rltb_true in B. lra.
Qed.
Lemma upto_nonneg tab t : tidy tab -> 0 <= upto tab t.
Proof. intro T. rewrite upto_sum. induction T as [|e tab [_ P] _ IH]; cbn [map sum]; [lra|]. destruct (Rltb t (fst e)); lra. Qed.
Lemma upto_all tab t : tidy tab -> 1 <= t -> upto tab t = sum (map snd tab).
Proof. intros T L. rewrite upto_sum. induction T as [|e tab [P _] _ IH]; cbn [map sum]; [lra|]. rewrite (proj2 (Rltb_false t (fst e))) by lra. lra. Qed.
Lemma yearly_spent tab years : forall k t spent j, (j < k)%nat -> spent + sum (firstn (S j) (yearly tab years k t spent)) = upto tab (1 / INR years * (INR (t + j) + 1)).
Proof.
  induction k as [|k IH]; intros t spent j J; [lia|]. cbn [yearly firstn sum]. destruct j as [|j].
  - rewrite Nat.add_0_r. destruct (yearly _ _ _ _ _); cbn [firstn sum]; ring.
  - rewrite <- Rplus_assoc, IH by lia. replace (S t + j)%nat with (t + S j)%nat by lia. reflexivity.
Qed.
Lemma yearly_length tab years : forall k t spent, List.length (yearly tab years k t spent) = k.
Proof. induction k as [|k IH]; intros t spent; cbn [yearly List.length]; [reflexivity|rewrite IH; reflexivity]. Qed.
Lemma yearly_nonneg tab years : (0 < years)%nat -> tidy tab -> forall k t spent, spent <= upto tab (1 / INR years * (INR t + 1)) -> Forall (fun x => 0 <= x) (yearly tab years k t spent).
Proof.
  intros Y T. assert (P : 0 < 1 / INR years) by (apply Rdiv_lt_0_compat; [lra|apply lt_0_INR, Y]). induction k as [|k IH]; intros t spent L; cbn [yearly]; constructor; [lra|]. apply IH. replace (spent + (upto tab (1 / INR years * (INR t + 1)) - spent)) with (upto tab (1 / INR years * (INR t + 1))) by ring. apply upto_grows; [exact T|]. rewrite S_INR. nra.
Qed.
Lemma sum_times k l : sum (times k l) = sum l * k.
Proof. induction l as [|x l IH]; cbn [times map sum]; [ring|]. unfold times in IH. rewrite IH. ring. Qed.
Lemma sum_scaled k l : sum (map (fun x => k * x) l) = k * sum l.
Proof. induction l as [|x l IH]; cbn [map sum]; [ring|]. rewrite IH. ring. Qed.
Lemma sum_map2 : forall a b, List.length a = List.length b -> sum (map2 Rplus a b) = sum a + sum b.
Proof. induction a as [|x a IH]; intros [|y b] L; try discriminate L; cbn [map2 sum]; [ring|]. cbn in L. rewrite IH by lia. ring. Qed.
Lemma length_map2 : forall a b, List.length a = List.length b -> List.length (map2 Rplus a b) = List.length a.
Proof. induction a as [|x a IH]; intros [|y b] L; try discriminate L; cbn [map2 List.length]; [reflexivity|]. cbn in L. rewrite IH by lia. reflexivity. Qed.
Lemma shares_length tab n : List.length (shares tab n) = n.
Proof. apply yearly_length. Qed.
Lemma shares_sum tab n : (0 < n)%nat -> tidy tab -> sum (shares tab n) = sum (map snd tab).
Proof.
  intros N T. unfold shares. pose proof (yearly_spent tab n n 0 0 (n - 1) ltac:(lia)) as E. replace (S (n - 1)) with n in E by lia. pose proof (yearly_length tab n n 0 0) as LE. rewrite <- LE in E at 1. rewrite firstn_all in E. rewrite Rplus_0_l in E. rewrite E. apply upto_all; [exact T|].
  cbn [Nat.add]. rewrite <- S_INR. replace (S (n - 1)) with n by lia. right. field. apply not_0_INR. lia.
Qed.
Lemma tidy_tables : tidy nd_engineering /\ tidy nd_manuf_engineering /\ tidy nd_tooling_design /\ tidy nd_tooling_production /\ tidy nd_support.
Proof. unfold tidy. split; [|split; [|split; [|split]]]; repeat (apply Forall_cons; [cbn [fst snd]; lra|]); apply Forall_nil. Qed.
