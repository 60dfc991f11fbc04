(** * Gaussian elimination over the rationals *)
From Coq Require Import List Bool Arith Lia ZArith String QArith Qcanon Permutation.
From Verif Require Import PyBase M_Pint S_Pint.
Import ListNotations.
Local Open Scope list_scope.
Local Open Scope Qc_scope.

Definition sum (n : nat) (f : nat -> Qc) : Qc := total (map f (seq 0 n)).
Lemma total_ext {A} (f g : A -> Qc) l : (forall x, In x l -> f x = g x) -> total (map f l) = total (map g l).
Proof. induction l as [|a l IH]; intro H; [reflexivity|]. cbn. rewrite (H a (or_introl eq_refl)), IH; [reflexivity|]. intros x I. apply H. right. exact I. Qed.
Lemma sum_ext n f g : (forall i, (i < n)%nat -> f i = g i) -> sum n f = sum n g.
Proof. intro H. apply total_ext. intros x I. apply in_seq in I. apply H. lia. Qed.
Lemma total_add {A} (f g : A -> Qc) l : total (map (fun x => f x + g x) l) = total (map f l) + total (map g l).
Proof. induction l as [|a l IH]; cbn; [ring|]. rewrite IH. ring. Qed.
Lemma sum_add n f g : sum n (fun x => f x + g x) = sum n f + sum n g. Proof. apply total_add. Qed.
Lemma total_scale {A} (c : Qc) (f : A -> Qc) l : total (map (fun x => c * f x) l) = c * total (map f l).
Proof. induction l as [|a l IH]; cbn; [ring|]. rewrite IH. ring. Qed.
Lemma sum_scale n c f : sum n (fun x => c * f x) = c * sum n f. Proof. apply total_scale. Qed.
Lemma total_zero {A} (f : A -> Qc) l : (forall x, In x l -> f x = 0) -> total (map f l) = 0.
Proof. induction l as [|a l IH]; intro H; [reflexivity|]. cbn. rewrite (H a (or_introl eq_refl)), IH; [ring|]. intros x I. apply H. right. exact I. Qed.
Lemma sum_zero n f : (forall i, (i < n)%nat -> f i = 0) -> sum n f = 0.
Proof. intro H. apply total_zero. intros x I. apply in_seq in I. apply H. lia. Qed.
Lemma sum_S n f : sum (S n) f = sum n f + f n.
Proof. unfold sum. rewrite seq_S, map_app. cbn [map Nat.add]. generalize (map f (seq 0 n)) (f n). intros l x. induction l as [|a l IH]; cbn [app total]; [ring|]. rewrite IH. ring. Qed.
Lemma sum_swap n m f : sum n (fun i => sum m (fun j => f i j)) = sum m (fun j => sum n (fun i => f i j)).
Proof. induction n as [|n IH]; [symmetry; apply sum_zero; reflexivity|]. rewrite sum_S, IH. rewrite <- sum_add. apply sum_ext. intros j _. rewrite sum_S. reflexivity. Qed.
Lemma total_perm l l' : Permutation l l' -> total l = total l'.
Proof. intro P. induction P; cbn; [reflexivity|rewrite IHP; reflexivity|ring|congruence]. Qed.
Lemma sum_one n r f : (r < n)%nat -> (forall i, (i < n)%nat -> i <> r -> f i = 0) -> sum n f = f r.
Proof.
  intros L H. induction n as [|n IH]; [lia|]. rewrite sum_S. destruct (Nat.eq_dec r n) as [->|N]; [rewrite sum_zero; [ring|intros i I; apply H; lia]|]. rewrite IH; [rewrite (H n) by lia; ring|lia|intros i I; apply H; lia].
Qed.
Lemma sum_pick n r f : (r < n)%nat -> sum n f = f r + sum n (fun i => if Nat.eqb i r then 0 else f i).
Proof.
  intro L. rewrite (sum_ext n f (fun i => (if Nat.eqb i r then f i else 0) + (if Nat.eqb i r then 0 else f i))) by (intros i _; destruct (Nat.eqb i r); ring). rewrite sum_add. f_equal. rewrite (sum_one n r) by (try exact L; intros i _ N; rewrite (proj2 (Nat.eqb_neq i r)) by exact N; reflexivity). rewrite Nat.eqb_refl. reflexivity.
Qed.

Lemma nonzero_true q : nonzero q = true <-> q <> 0.
Proof. unfold nonzero. rewrite negb_true_iff. destruct (Qeq_bool (this q) 0%Q) eqn:E; split; try discriminate; [intro N; exfalso; apply N, Qc_is_canon; apply Qeq_bool_iff, E|intros _ ->; discriminate E|reflexivity]. Qed.
Lemma nonzero_false q : nonzero q = false <-> q = 0.
Proof. rewrite <- not_true_iff_false, nonzero_true. destruct (Qc_eq_dec q 0); tauto. Qed.
(** ** rows *)
Definition sigma (i r a : nat) : nat := if Nat.eqb a r then i else if Nat.eqb a i then r else a.
Lemma sigma_sigma i r a : sigma i r (sigma i r a) = a.
Proof. unfold sigma. destruct (Nat.eqb_spec a r) as [->|N]; [|destruct (Nat.eqb_spec a i) as [->|N2]]; repeat match goal with |- context [Nat.eqb ?x ?y] => destruct (Nat.eqb_spec x y) end; congruence. Qed.
Lemma sigma_lt i r a n : (i < n)%nat -> (r < n)%nat -> (a < n)%nat -> (sigma i r a < n)%nat.
Proof. unfold sigma. destruct (Nat.eqb a r), (Nat.eqb a i); lia. Qed.
Lemma sigma_r i r : sigma i r r = i. Proof. unfold sigma. rewrite Nat.eqb_refl. reflexivity. Qed.
Lemma sigma_i i r : sigma i r i = r. Proof. rewrite <- (sigma_r i r) at 2. rewrite sigma_sigma. reflexivity. Qed.
Lemma sigma_not i r a : a <> r -> sigma i r a <> i.
Proof. intros N E. apply N. rewrite <- (sigma_sigma i r a), E. apply sigma_i. Qed.
Lemma sum_sigma n i r f : (i < n)%nat -> (r < n)%nat -> sum n (fun a => f (sigma i r a)) = sum n f.
Proof.
  intros I R. unfold sum. rewrite <- (map_map (sigma i r) f). apply total_perm, Permutation_map. apply NoDup_Permutation.
  - apply FinFun.Injective_map_NoDup; [|apply seq_NoDup]. intros a b E. rewrite <- (sigma_sigma i r a), E. apply sigma_sigma.
  - apply seq_NoDup.
  - intro x. rewrite in_map_iff, in_seq. split; [intros (a & <- & L); apply in_seq in L; pose proof (sigma_lt i r a n I R); lia|]. intro L. exists (sigma i r x). split; [apply sigma_sigma|]. apply in_seq. pose proof (sigma_lt i r x n I R). lia.
Qed.
Lemma put_length {A} n (x : A) l : List.length (put n x l) = List.length l.
Proof. revert n. induction l as [|y l IH]; intros [|n]; cbn; try reflexivity. rewrite IH. reflexivity. Qed.
Lemma nth_put {A} (d x : A) l n a : (n < List.length l)%nat -> nth a (put n x l) d = if Nat.eqb a n then x else nth a l d.
Proof. revert n a. induction l as [|y l IH]; intros [|n] [|a] L; cbn in *; try lia; try reflexivity. rewrite IH by lia. reflexivity. Qed.
Lemma nth_zip (f : Qc -> Qc -> Qc) : f 0 0 = 0 -> forall a b j, List.length a = List.length b -> nth j (zip_with f a b) 0 = f (nth j a 0) (nth j b 0).
Proof. intros Z a. induction a as [|x a IH]; intros [|y b] j L; try discriminate; [destruct j; symmetry; exact Z|]. cbn in L. destruct j as [|j]; [reflexivity|]. cbn. apply IH. lia. Qed.
Lemma zip_length {A B C} (f : A -> B -> C) a b : List.length a = List.length b -> List.length (zip_with f a b) = List.length a.
Proof. revert b. induction a as [|x a IH]; intros [|y b] L; cbn in *; try lia. rewrite IH by lia. reflexivity. Qed.
Definition shape (m : mat) (n c : nat) : Prop := List.length m = n /\ forall i, (i < n)%nat -> List.length (nth i m []) = c.
Lemma nth_swap m i r a n : List.length m = n -> (i < n)%nat -> (r < n)%nat -> nth a (swap m i r) [] = nth (sigma i r a) m [].
Proof. intros N I R. unfold swap, sigma. rewrite nth_put by (rewrite put_length; lia). rewrite nth_put by lia. destruct (Nat.eqb_spec a r); [reflexivity|]. destruct (Nat.eqb_spec a i); reflexivity. Qed.
Lemma nth_scale lv m r a n : List.length m = n -> (r < n)%nat -> nth a (scale_row lv m r) [] = if Nat.eqb a r then map (fun x => x / lv) (nth r m []) else nth a m [].
Proof. intros N R. unfold scale_row. rewrite nth_put by lia. reflexivity. Qed.
Lemma nth_div lv (l : row) j : nth j (map (fun x => x / lv) l) 0 = nth j l 0 / lv.
Proof. rewrite <- (map_nth (fun x => x / lv)). f_equal. unfold Qcdiv. ring. Qed.
Lemma nth_clear b m r a n : List.length m = n -> (a < n)%nat -> nth a (clear_rows b m r) [] = if Nat.eqb a r then nth a m [] else zip_with (fun rv iv => iv - b a * rv) (nth r m []) (nth a m []).
Proof.
  intros N A. unfold clear_rows. set (F := fun i => if Nat.eqb i r then nth i m [] else zip_with (fun rv iv => iv - b i * rv) (nth r m []) (nth i m [])). change ((if Nat.eqb a r then nth a m [] else zip_with (fun rv iv => iv - b a * rv) (nth r m []) (nth a m []))) with (F a). rewrite (nth_indep _ [] (F 0%nat)) by (rewrite map_length, seq_length; lia). rewrite map_nth, seq_nth by lia. reflexivity.
Qed.
(** what one turn of the loop does to the entries, for the matrix and for the record of the operations *)
Definition turned (b : nat -> Qc) (i r : nat) (p : Qc) (x : nat -> nat -> Qc) (a j : nat) : Qc := if Nat.eqb a r then x i j / p else x (sigma i r a) j - b (sigma i r a) * (x i j / p).
Lemma turn_shape lv b m i r n c : shape m n c -> (i < n)%nat -> (r < n)%nat -> shape (clear_rows b (scale_row lv (swap m i r) r) r) n c.
Proof.
  intros [N C] I R. assert (L1 : List.length (swap m i r) = n) by (unfold swap; rewrite !put_length; exact N). assert (L2 : List.length (scale_row lv (swap m i r) r) = n) by (unfold scale_row; rewrite put_length; exact L1).
  split; [unfold clear_rows; rewrite map_length, seq_length; exact L2|]. intros a A. rewrite (nth_clear b _ r a n L2 A). rewrite (nth_scale lv _ r a n L1 R), (nth_scale lv _ r r n L1 R), Nat.eqb_refl, !(nth_swap m i r _ n N I R). pose proof (sigma_lt i r a n I R A). destruct (Nat.eqb a r).
  - rewrite map_length. rewrite sigma_r. apply C, I.
  - rewrite zip_length; rewrite map_length, sigma_r; [apply C, I|]. rewrite !C by assumption. reflexivity.
Qed.
Lemma turn_entry lv b m i r n c a j : shape m n c -> (i < n)%nat -> (r < n)%nat -> (a < n)%nat -> entry (clear_rows b (scale_row lv (swap m i r) r) r) a j = if Nat.eqb a r then entry m i j / lv else entry m (sigma i r a) j - b a * (entry m i j / lv).
Proof.
  intros [N C] I R A. assert (L1 : List.length (swap m i r) = n) by (unfold swap; rewrite !put_length; exact N). assert (L2 : List.length (scale_row lv (swap m i r) r) = n) by (unfold scale_row; rewrite put_length; exact L1).
  unfold entry. rewrite (nth_clear b _ r a n L2 A). rewrite (nth_scale lv _ r a n L1 R), (nth_scale lv _ r r n L1 R), Nat.eqb_refl, !(nth_swap m i r _ n N I R). rewrite sigma_r. pose proof (sigma_lt i r a n I R A). destruct (Nat.eqb a r); [apply nth_div|].
  rewrite nth_zip; [rewrite nth_div; reflexivity|ring|rewrite map_length, !C by assumption; reflexivity].
Qed.
Lemma eliminate_entry m ident r i lead n c : shape m n c -> shape ident n n -> (i < n)%nat -> (r < n)%nat -> forall m' ident', eliminate m ident r i lead = (m', ident') ->
  shape m' n c /\ shape ident' n n /\ forall a j, (a < n)%nat -> entry m' a j = turned (fun c => entry m c lead) i r (entry m i lead) (entry m) a j /\ entry ident' a j = turned (fun c => entry m c lead) i r (entry m i lead) (entry ident) a j.
Proof.
  intros S T I R m' ident' E. unfold eliminate in E. injection E as <- <-. assert (P : entry (swap m i r) r lead = entry m i lead) by (unfold entry; rewrite (nth_swap m i r r n (proj1 S) I R), sigma_r; reflexivity). rewrite P.
  split; [apply turn_shape; assumption|]. split; [apply turn_shape; assumption|]. intros a j A.
  assert (B : a <> r -> entry (scale_row (entry m i lead) (swap m i r) r) a lead = entry m (sigma i r a) lead). { intro NE. unfold entry at 1. rewrite (nth_scale _ _ r a n); [|unfold swap; rewrite !put_length; apply S|exact R]. rewrite (proj2 (Nat.eqb_neq a r)) by exact NE. rewrite (nth_swap m i r a n (proj1 S) I R). reflexivity. }
  rewrite !(turn_entry _ _ _ i r n) with (c := c) by assumption. rewrite (turn_entry _ _ ident i r n n a j T I R A). unfold turned. destruct (Nat.eqb_spec a r) as [->|NE]; [split; reflexivity|]. rewrite (B NE). split; reflexivity.
Qed.

(** ** invariants *)
Definition product (n : nat) (ident m m0 : nat -> nat -> Qc) (cols : nat) : Prop := forall a j, (a < n)%nat -> (j < cols)%nat -> m a j = sum n (fun k => ident a k * m0 k j).
Definition spans (n : nat) (x : nat -> nat -> Qc) : Prop := forall v : nat -> Qc, exists y, forall k, (k < n)%nat -> v k = sum n (fun a => y a * x a k).
Definition independent (n : nat) (x : nat -> nat -> Qc) : Prop := forall y : nat -> Qc, (forall k, (k < n)%nat -> sum n (fun a => y a * x a k) = 0) -> forall a, (a < n)%nat -> y a = 0.
Definition pivots (n cols r lead : nat) (m : nat -> nat -> Qc) (l : nat -> nat) : Prop :=
  (forall s, (s < r)%nat -> (l s < cols)%nat /\ forall a, (a < n)%nat -> m a (l s) = if Nat.eqb a s then 1 else 0) /\ forall a j, (r <= a < n)%nat -> (j < lead)%nat -> m a j = 0.
Section Turn.
  Variables (n i r : nat) (b : nat -> Qc).
  Hypothesis I : (i < n)%nat.
  Hypothesis R : (r < n)%nat.
  Let p := b i.
  Hypothesis P : p <> 0.
  Lemma turned_uniform x a j : turned b i r p x a j = (x (sigma i r a) j - b (sigma i r a) * (x i j / p)) + (if Nat.eqb a r then x i j / p else 0).
  Proof. unfold turned. destruct (Nat.eqb_spec a r) as [->|]; [|ring]. rewrite sigma_r. fold p. field. exact P. Qed.
  Lemma combine_turned x (y : nat -> Qc) k : sum n (fun a => y a * turned b i r p x a k) = sum n (fun c => y (sigma i r c) * (x c k - b c * (x i k / p))) + y r * (x i k / p).
  Proof.
    rewrite (sum_ext n _ (fun a => y a * (x (sigma i r a) k - b (sigma i r a) * (x i k / p)) + (if Nat.eqb a r then y a * (x i k / p) else 0))) by (intros a _; rewrite turned_uniform; destruct (Nat.eqb a r); ring).
    rewrite sum_add. f_equal; [|rewrite (sum_one n r) by (try exact R; intros a _ N; rewrite (proj2 (Nat.eqb_neq a r)) by exact N; reflexivity); rewrite Nat.eqb_refl; reflexivity].
    rewrite <- (sum_sigma n i r (fun c => y (sigma i r c) * (x c k - b c * (x i k / p))) I R). apply sum_ext. intros a _. rewrite sigma_sigma. reflexivity.
  Qed.
  Lemma turned_product ident m m0 cols : product n ident m m0 cols -> product n (turned b i r p ident) (turned b i r p m) m0 cols.
  Proof.
    intros H a j A J. rewrite turned_uniform. pose proof (sigma_lt i r a n I R A) as SL. rewrite (H _ j SL J), (H i j I J). rewrite (sum_ext n (fun k => turned b i r p ident a k * m0 k j) (fun k => ident (sigma i r a) k * m0 k j + ((- (b (sigma i r a) / p)) * (ident i k * m0 k j) + (if Nat.eqb a r then 1 / p else 0) * (ident i k * m0 k j)))).
    - rewrite sum_add, sum_add, !sum_scale. destruct (Nat.eqb a r); field; exact P.
    - intros k _. rewrite turned_uniform. destruct (Nat.eqb a r); field; exact P.
  Qed.
  Lemma turned_spans x : spans n x -> spans n (turned b i r p x).
  Proof.
    intros H v. destruct (H v) as [y Y]. exists (fun a => if Nat.eqb a r then sum n (fun c => y c * b c) else y (sigma i r a)). intros k K. rewrite combine_turned. rewrite Nat.eqb_refl. rewrite (Y k K).
    rewrite (sum_ext n (fun c => (if Nat.eqb (sigma i r c) r then sum n (fun c0 => y c0 * b c0) else y (sigma i r (sigma i r c))) * (x c k - b c * (x i k / p))) (fun c => y c * x c k + (- (x i k / p)) * (y c * b c))).
    - rewrite sum_add, sum_scale. ring.
    - intros c _. destruct (Nat.eqb_spec (sigma i r c) r) as [E|N]; [|rewrite sigma_sigma; ring]. assert (c = i) as -> by (rewrite <- (sigma_sigma i r c), E; apply sigma_r). fold p. field. exact P.
  Qed.
  Lemma turned_independent x : independent n x -> independent n (turned b i r p x).
  Proof.
    intros H y Y. set (t := sum n (fun c => if Nat.eqb c i then 0 else y (sigma i r c) * b c)). set (z := fun c => if Nat.eqb c i then (y r - t) / p else y (sigma i r c)).
    assert (Z : forall c, (c < n)%nat -> z c = 0).
    { apply H. intros k K. rewrite <- (Y k K), combine_turned. rewrite (sum_pick n i) by exact I. rewrite (sum_pick n i (fun c => y (sigma i r c) * (x c k - b c * (x i k / p)))) by exact I. unfold z at 1. rewrite Nat.eqb_refl. fold p.
      rewrite (sum_ext n (fun c => if Nat.eqb c i then 0 else y (sigma i r c) * (x c k - b c * (x i k / p))) (fun c => (if Nat.eqb c i then 0 else z c * x c k) + (- (x i k / p)) * (if Nat.eqb c i then 0 else y (sigma i r c) * b c))) by (intros c _; unfold z; destruct (Nat.eqb c i); ring).
      rewrite sum_add, sum_scale. fold t. field. exact P. }
    assert (YA : forall a, (a < n)%nat -> a <> r -> y a = 0). { intros a A N. pose proof (Z (sigma i r a) (sigma_lt i r a n I R A)) as ZA. unfold z in ZA. rewrite (proj2 (Nat.eqb_neq _ i)) in ZA by (apply sigma_not, N). rewrite sigma_sigma in ZA. exact ZA. }
    intros a A. destruct (Nat.eq_dec a r) as [->|N]; [|exact (YA a A N)]. pose proof (Z i I) as ZI. unfold z in ZI. rewrite Nat.eqb_refl in ZI. assert (T : t = 0). { apply sum_zero. intros c C. destruct (Nat.eqb_spec c i) as [|NC]; [reflexivity|]. rewrite YA; [ring|apply sigma_lt; assumption|]. intro E. apply NC. rewrite <- (sigma_sigma i r c), E. apply sigma_r. }
    rewrite T in ZI. transitivity (p * ((y r - 0) / p)); [field; exact P|]. rewrite ZI. ring.
  Qed.
End Turn.
Lemma find_pivot_spec m r n : List.length m = n -> forall k lead, match find_pivot m r lead k with
  | Some (i, l) => (r <= i < n)%nat /\ (lead <= l < lead + k)%nat /\ entry m i l <> 0 /\ forall a j, (r <= a < n)%nat -> (lead <= j < l)%nat -> entry m a j = 0
  | None => forall a j, (r <= a < n)%nat -> (lead <= j < lead + k)%nat -> entry m a j = 0 end.
Proof.
  intros N k. induction k as [|k IH]; intro lead; cbn [find_pivot]; [intros; lia|]. destruct (find (fun i => nonzero (entry m i lead)) (seq r (List.length m - r))) as [i|] eqn:F.
  - apply find_some in F. destruct F as [I NZ]. apply in_seq in I. split; [lia|]. split; [lia|]. split; [apply nonzero_true, NZ|intros; lia].
  - assert (Z : forall a, (r <= a < n)%nat -> entry m a lead = 0). { intros a A. pose proof (find_none _ _ F a ltac:(apply in_seq; lia)) as H. cbn beta in H. apply nonzero_false, H. }
    specialize (IH (S lead)). destruct (find_pivot m r (S lead) k) as [[i l]|].
    + destruct IH as (A & B & C & D). split; [exact A|]. split; [lia|]. split; [exact C|]. intros a j L J. destruct (Nat.eq_dec j lead) as [->|]; [exact (Z a L)|apply D; lia].
    + intros a j L J. destruct (Nat.eq_dec j lead) as [->|]; [exact (Z a L)|apply IH; lia].
Qed.
Lemma echelon_spec n cols m0 : forall k m ident r lead l, (r + k = n)%nat -> (lead <= cols)%nat -> shape m n cols -> shape ident n n -> product n (entry ident) (entry m) m0 cols -> spans n (entry ident) -> independent n (entry ident) -> pivots n cols r lead (entry m) l ->
  forall m' ident', echelon k cols m ident r lead = (m', ident') -> shape m' n cols /\ shape ident' n n /\ product n (entry ident') (entry m') m0 cols /\ spans n (entry ident') /\ independent n (entry ident') /\ exists r' l', (r' <= n)%nat /\ pivots n cols r' cols (entry m') l'.
Proof.
  induction k as [|k IH]; intros m ident r lead l RK LC SM SI PR SP IN [PV1 PV2] m' ident' E; cbn [echelon] in E.
  - injection E as <- <-. split; [exact SM|]. split; [exact SI|]. split; [exact PR|]. split; [exact SP|]. split; [exact IN|]. exists r, l. split; [lia|]. split; [exact PV1|intros; lia].
  - pose proof (find_pivot_spec m r n (proj1 SM) (cols - lead) lead) as FP. destruct (find_pivot m r lead (cols - lead)) as [[i ld]|].
    + destruct FP as (IR & LD & NZ & Z). destruct (eliminate m ident r i ld) as [m1 ident1] eqn:EL. destruct (eliminate_entry m ident r i ld n cols SM SI ltac:(lia) ltac:(lia) m1 ident1 EL) as (S1 & T1 & EN).
      set (b := fun c => entry m c ld) in *. assert (PB : b i <> 0) by exact NZ. assert (IL : (i < n)%nat) by lia. assert (RL : (r < n)%nat) by lia.
      apply (IH m1 ident1 (S r) (S ld) (fun s => if Nat.eqb s r then ld else l s)); try assumption; try lia.
      * intros a j A J. transitivity (turned b i r (b i) (entry m) a j); [exact (proj1 (EN a j A))|]. rewrite (turned_product n i r b IL RL PB (entry ident) (entry m) m0 cols PR a j A J). apply sum_ext. intros c C. rewrite (proj2 (EN a c A)). reflexivity.
      * intro v. destruct (turned_spans n i r b IL RL PB (entry ident) SP v) as [y Y]. exists y. intros c C. rewrite (Y c C). apply sum_ext. intros a A. rewrite (proj2 (EN a c A)). reflexivity.
      * intros y Y. apply (turned_independent n i r b IL RL PB (entry ident) IN). intros c C. rewrite <- (Y c C). apply sum_ext. intros a A. rewrite (proj2 (EN a c A)). reflexivity.
      * assert (LOW : forall a, (r <= a < n)%nat -> (r <= sigma i r a < n)%nat) by (intros a A; unfold sigma; destruct (Nat.eqb a r), (Nat.eqb a i); lia).
        assert (ZL : forall a j, (r <= a < n)%nat -> (j < ld)%nat -> entry m a j = 0) by (intros a j A J; destruct (Nat.lt_ge_cases j lead); [apply PV2; lia|apply Z; lia]).
        assert (SD : forall a, (a < n)%nat -> a <> r -> entry m1 a ld = 0). { intros a A N. rewrite (proj1 (EN a ld A)). unfold turned. rewrite (proj2 (Nat.eqb_neq a r)) by exact N. unfold b. field. exact NZ. }
        split.
        -- intros s S. destruct (Nat.eqb_spec s r) as [->|NS].
           ++ split; [lia|]. intros a A. destruct (Nat.eqb_spec a r) as [->|N]; [|exact (SD a A N)]. rewrite (proj1 (EN r ld A)). unfold turned. rewrite Nat.eqb_refl. field. exact NZ.
           ++ destruct (PV1 s ltac:(lia)) as [LS C]. split; [exact LS|]. intros a A. rewrite (proj1 (EN a (l s) A)). unfold turned. rewrite (C i IL), (proj2 (Nat.eqb_neq i s)) by lia. destruct (Nat.eqb_spec a r) as [->|N]; [rewrite (proj2 (Nat.eqb_neq r s)) by lia; unfold Qcdiv; ring|].
              rewrite (C _ (sigma_lt i r a n IL RL A)). replace (0 / entry m i ld) with 0 by (unfold Qcdiv; ring). destruct (Nat.lt_ge_cases a r) as [AR|AR].
              ** assert (sigma i r a = a) as -> by (unfold sigma; rewrite (proj2 (Nat.eqb_neq a r)), (proj2 (Nat.eqb_neq a i)) by lia; reflexivity). destruct (Nat.eqb a s); ring.
              ** pose proof (LOW a ltac:(lia)). rewrite (proj2 (Nat.eqb_neq (sigma i r a) s)), (proj2 (Nat.eqb_neq a s)) by lia. ring.
        -- intros a j A J. destruct (Nat.eq_dec j ld) as [->|NJ]; [apply SD; lia|]. rewrite (proj1 (EN a j ltac:(lia))). unfold turned. rewrite (proj2 (Nat.eqb_neq a r)) by lia. rewrite (ZL _ j (LOW a ltac:(lia)) ltac:(lia)), (ZL i j ltac:(lia) ltac:(lia)). unfold Qcdiv. ring.
    + injection E as <- <-. split; [exact SM|]. split; [exact SI|]. split; [exact PR|]. split; [exact SP|]. split; [exact IN|]. exists r, l. split; [lia|]. split; [exact PV1|]. intros a j A J. destruct (Nat.lt_ge_cases j lead); [apply PV2; lia|apply FP; lia].
Qed.
