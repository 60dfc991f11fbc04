(** * Dimensionless groups *)
From Coq Require Import List Bool Arith Lia ZArith String QArith Qcanon.
From Verif Require Import PyBase M_Pint S_Pint P_Pint2 P_Dict.
Import ListNotations.
Local Open Scope list_scope.
Local Open Scope Qc_scope.

Lemma total_nth {A} (f : A -> Qc) (l : list A) d : total (map f l) = sum (List.length l) (fun k => f (nth k l d)).
Proof.
  unfold sum. f_equal. symmetry. rewrite <- (map_map (fun k => nth k l d) f). f_equal. induction l as [|x l IH]; [reflexivity|]. cbn [List.length seq map nth]. f_equal. rewrite <- seq_shift, map_map. exact IH.
Qed.
Lemma nth_all {A} (l : list A) d n : List.length l = n -> l = map (fun k => nth k l d) (seq 0 n).
Proof. intros <-. induction l as [|x l IH]; [reflexivity|]. cbn [List.length seq map nth]. f_equal. rewrite <- seq_shift, map_map. exact IH. Qed.
Lemma sum_shift n r f : (r <= n)%nat -> sum n (fun a => if (a <? r)%nat then 0 else f (a - r)%nat) = sum (n - r) f.
Proof.
  induction n as [|n IH]; intro L; [reflexivity|]. rewrite sum_S. destruct (Nat.eq_dec r (S n)) as [->|N].
  - rewrite Nat.sub_diag. rewrite sum_zero by (intros i I; rewrite (proj2 (Nat.ltb_lt i (S n))) by lia; reflexivity). rewrite (proj2 (Nat.ltb_lt n (S n))) by lia. unfold sum. cbn. ring.
  - rewrite IH by lia. rewrite (proj2 (Nat.ltb_ge n r)) by lia. replace (S n - r)%nat with (S (n - r)) by lia. rewrite sum_S. reflexivity.
Qed.
(** ** fractions *)
Lemma this_ofZ z : (this (ofZ z) == inject_Z z)%Q. Proof. unfold ofZ. cbn [this Q2Qc]. apply Qred_correct. Qed.
Lemma ofZ_nonzero z : z <> 0%Z -> ofZ z <> 0.
Proof. intros N E. apply N. assert (H : (inject_Z z == 0)%Q) by (rewrite <- this_ofZ, E; reflexivity). unfold Qeq in H. cbn in H. lia. Qed.
Lemma ratio f : ofZ (Qnum (this f)) = f * ofZ (Zpos (Qden (this f))).
Proof. apply Qc_is_canon. cbn [this]. unfold Qcmult, Q2Qc. cbn [this]. rewrite Qred_correct, !this_ofZ. unfold Qeq, inject_Z, Qmult. cbn. lia. Qed.
Lemma num_zero f : Qnum (this f) = 0%Z <-> f = 0.
Proof. split; [|intros ->; reflexivity]. intro H. apply Qc_is_canon. unfold Qeq. rewrite H. reflexivity. Qed.
(** ** one group *)
Definition max_den (l : row) : Z := fold_right Z.max 0%Z (map (fun f => Zpos (Qden (this f))) l).
Definition sign (l : row) : Z := if Nat.ltb (List.length (filter positive l)) (List.length (filter negative l)) then (-1)%Z else 1%Z.
Definition times (l : row) : Qc := ofZ (sign l) * ofZ (max_den l).
Lemma times_nonzero l : l <> [] -> times l <> 0.
Proof.
  intro N. unfold times. intro E. apply Qcmult_integral in E. destruct E as [E|E]; revert E; apply ofZ_nonzero; [unfold sign; destruct (Nat.ltb _ _); lia|]. unfold max_den. destruct l as [|x l]; [contradiction|]. cbn [map fold_right]. lia.
Qed.
Lemma group_value names l (x : Qc) : ofZ (sign l) * ofZ (Qnum (this x)) * ofZ (max_den l) / ofZ (Zpos (Qden (this x))) = times l * x /\ group names l = flat_map (fun nf : string * Qc => if Z.eqb (Qnum (this (snd nf))) 0 then [] else [(fst nf, ofZ (sign l) * ofZ (Qnum (this (snd nf))) * ofZ (max_den l) / ofZ (Zpos (Qden (this (snd nf)))))]) (combine names l).
Proof. split; [|reflexivity]. rewrite ratio. unfold times. field. apply ofZ_nonzero. lia. Qed.
Lemma dget_flat (c : Qc -> bool) (h : Qc -> Qc) : forall names (l : row) k, NoDup names -> List.length names = List.length l -> (k < List.length names)%nat ->
  dget (nth k names ""%string) (flat_map (fun nf => if c (snd nf) then [] else [(fst nf, h (snd nf))]) (combine names l)) = if c (nth k l 0) then None else Some (h (nth k l 0)).
Proof.
  assert (NI : forall names (l : row) s, ~ In s names -> dget s (flat_map (fun nf => if c (snd nf) then [] else [(fst nf, h (snd nf))]) (combine names l)) = None).
  { intros names. induction names as [|m names IH]; intros l s H; [reflexivity|]. destruct l as [|x l]; [reflexivity|]. cbn [combine flat_map fst snd]. destruct (c x); cbn [app dget]; [|rewrite (proj2 (String.eqb_neq s m)) by (intros ->; apply H; left; reflexivity)]; apply IH; intro I; apply H; right; exact I. }
  intro names. induction names as [|m names IH]; intros [|x l] k N L K; cbn [List.length] in *; try lia. inversion N as [|? ? N0 N1]; subst. cbn [combine flat_map fst snd]. destruct k as [|k]; cbn [nth].
  - destruct (c x); cbn [app dget]; [apply NI, N0|rewrite String.eqb_refl; reflexivity].
  - assert (S : nth k names ""%string <> m) by (intro E; apply N0; rewrite <- E; apply nth_In; lia). destruct (c x); cbn [app dget]; [|rewrite (proj2 (String.eqb_neq _ m)) by exact S]; apply IH; try assumption; lia.
Qed.
Lemma group_exponent names l k : NoDup names -> List.length names = List.length l -> (k < List.length names)%nat -> exponent (group names l) (nth k names ""%string) = times l * nth k l 0.
Proof.
  intros N L K. unfold exponent. rewrite (proj2 (group_value names l 0)). rewrite (dget_flat (fun x => Z.eqb (Qnum (this x)) 0) (fun x => ofZ (sign l) * ofZ (Qnum (this x)) * ofZ (max_den l) / ofZ (Zpos (Qden (this x))))) by assumption.
  destruct (Z.eqb_spec (Qnum (this (nth k l 0))) 0) as [E|_]; [apply num_zero in E; rewrite E; ring|]. apply (group_value names l).
Qed.
Lemma combined_sum gs : forall c name, List.length c = List.length gs -> combined gs c name = sum (List.length gs) (fun t => nth t c 0 * exponent (nth t gs []) name).
Proof.
  intros c name L. unfold combined. rewrite (total_nth (fun gc : dict Qc * Qc => snd gc * exponent (fst gc) name) _ (([] : dict Qc), 0)). rewrite combine_length, L, Nat.min_id. apply sum_ext. intros t T. rewrite combine_nth by (symmetry; exact L). reflexivity.
Qed.
(** ** the whole computation *)
Lemma transpose_eq (qs : list (string * dict Qc)) (ds : list string) : ds <> [] -> transpose (map (fun d => map (fun q => dimension_of d (snd q)) qs) ds) = map (fun k => map (fun r => nth k r 0) (map (fun d => map (fun q => dimension_of d (snd q)) qs) ds)) (seq 0 (List.length qs)).
Proof. destruct ds as [|d ds]; [contradiction|]. intros _. unfold transpose. cbn [map]. rewrite map_length. reflexivity. Qed.
Section Pi.
  Variables (qs : list (string * dict Qc)) (ds : list string).
  Let n := List.length qs.
  Let cols := List.length ds.
  Let m := transpose (map (fun d => map (fun q => dimension_of d (snd q)) qs) ds).
  Let d0 : string * dict Qc := (""%string, []).
  Definition power (k j : nat) : Qc := dimension_of (nth j ds ""%string) (snd (nth k qs d0)).
  Hypothesis NQ : qs <> [].
  Hypothesis ND : ds <> [].
  Lemma m_rows : m = map (fun k => map (fun j => power k j) (seq 0 cols)) (seq 0 n).
  Proof.
    unfold m. rewrite (transpose_eq qs ds ND). apply map_ext_in. intros k K. apply in_seq in K.
    rewrite map_map. unfold cols. rewrite (nth_all ds ""%string (List.length ds) eq_refl) at 1. rewrite map_map. apply map_ext. intro j. unfold power. rewrite (nth_indep _ 0 (dimension_of (nth j ds ""%string) (snd d0))) by (rewrite map_length; unfold n in K; lia). rewrite (map_nth (fun q => dimension_of (nth j ds ""%string) (snd q))). reflexivity.
  Qed.
  Lemma nth_row {A} (f : nat -> A) k N (d : A) : (k < N)%nat -> nth k (map f (seq 0 N)) d = f k.
  Proof. intro L. rewrite (nth_indep _ d (f 0%nat)) by (rewrite map_length, seq_length; exact L). rewrite map_nth, seq_nth by exact L. reflexivity. Qed.
  Lemma m_shape : shape m n cols.
  Proof. rewrite m_rows. split; [rewrite map_length, seq_length; reflexivity|]. intros i I. rewrite nth_row by exact I. rewrite map_length, seq_length. reflexivity. Qed.
  Lemma m_entry k j : (k < n)%nat -> (j < cols)%nat -> entry m k j = power k j.
  Proof. intros K J. rewrite m_rows. unfold entry. rewrite nth_row by exact K. apply nth_row, J. Qed.
  Lemma id_shape : shape (identity n) n n.
  Proof. unfold identity. split; [rewrite map_length, seq_length; reflexivity|]. intros i I. rewrite nth_row by exact I. rewrite map_length, seq_length. reflexivity. Qed.
  Lemma id_entry a k : (a < n)%nat -> (k < n)%nat -> entry (identity n) a k = if Nat.eqb a k then 1 else 0.
  Proof. intros A K. unfold identity, entry. rewrite nth_row by exact A. apply nth_row, K. Qed.
  Lemma delta_sum f a : (a < n)%nat -> sum n (fun k => (if Nat.eqb a k then 1 else 0) * f k) = f a.
  Proof. intro A. rewrite (sum_one n a) by (try exact A; intros i _ N; rewrite (proj2 (Nat.eqb_neq a i)) by congruence; ring). rewrite Nat.eqb_refl. ring. Qed.
  Lemma delta_sum' f a : (a < n)%nat -> sum n (fun k => f k * (if Nat.eqb k a then 1 else 0)) = f a.
  Proof. intro A. rewrite (sum_one n a) by (try exact A; intros i _ N; rewrite (proj2 (Nat.eqb_neq i a)) by exact N; ring). rewrite Nat.eqb_refl. ring. Qed.
  Lemma form : exists m' ident' r l, column_echelon_form (map (fun d => map (fun q => dimension_of d (snd q)) qs) ds) = Ok (m', ident') /\ shape m' n cols /\ shape ident' n n /\ product n (entry ident') (entry m') power cols /\ spans n (entry ident') /\ independent n (entry ident') /\ (r <= n)%nat /\ pivots n cols r cols (entry m') l.
  Proof.
    destruct (echelon n cols m (identity n) 0 0) as [m' ident'] eqn:E.
    destruct (echelon_spec n cols power n m (identity n) 0 0 (fun _ => 0%nat)) with (m' := m') (ident' := ident') as (S1 & S2 & PR & SP & IN & r & l & RL & PV); try assumption; try lia; try exact m_shape; try exact id_shape.
    - intros a j A J. rewrite (m_entry a j A J). rewrite <- (delta_sum (fun k => power k j) a A). apply sum_ext. intros k K. rewrite (id_entry a k A K). reflexivity.
    - intro v. exists v. intros k K. rewrite <- (delta_sum' v k K) at 1. apply sum_ext. intros a A. rewrite (id_entry a k A K). reflexivity.
    - intros y Y a A. rewrite <- (Y a A), <- (delta_sum' y a A) at 1. apply sum_ext. intros c C. rewrite (id_entry c a C A). reflexivity.
    - split; intros; lia.
    - exists m', ident', r, l. split; [|repeat (split; [assumption|]); assumption]. unfold column_echelon_form. fold m. assert (M0 : List.length m = n) by apply m_shape. assert (M1 := proj2 m_shape 0%nat). destruct m as [|r0 mm] eqn:EM; [exfalso; apply NQ; apply length_zero_iff_nil; symmetry; exact M0|]. assert (NP : (0 < n)%nat) by (rewrite <- M0; cbn; lia). specialize (M1 NP). cbn [nth] in M1. rewrite M1, M0. rewrite E. reflexivity.
  Qed.
  Lemma groups_of m' ident' r l : shape m' n cols -> shape ident' n n -> (r <= n)%nat -> pivots n cols r cols (entry m') l ->
    flat_map (fun mr => if existsb nonzero (fst mr) then [] else [group (map fst qs) (snd mr)]) (combine m' ident') = map (fun a => group (map fst qs) (nth a ident' [])) (seq r (n - r)).
  Proof.
    intros [L1 C1] [L2 C2] R [P1 P2]. rewrite (nth_all m' [] n L1), (nth_all ident' [] n L2) at 1.
    assert (CM : combine (map (fun k => nth k m' []) (seq 0 n)) (map (fun k => nth k ident' []) (seq 0 n)) = map (fun k => (nth k m' [], nth k ident' [])) (seq 0 n)) by (generalize (seq 0 n); intro s; induction s as [|x s IH]; [reflexivity|]; cbn; rewrite IH; reflexivity).
    rewrite CM. replace n with (r + (n - r))%nat at 1 by lia. rewrite seq_app, map_app, flat_map_app. cbn [Nat.add].
    assert (A : forall s, (forall a, In a s -> (a < r)%nat) -> flat_map (fun mr => if existsb nonzero (fst mr) then [] else [group (map fst qs) (snd mr)]) (map (fun k => (nth k m' [], nth k ident' [])) s) = []).
    { induction s as [|a s IH]; intro H; [reflexivity|]. cbn [map flat_map fst snd]. rewrite IH by (intros b I; apply H; right; exact I). pose proof (H a (or_introl eq_refl)) as LA. destruct (P1 a LA) as [LC E]. specialize (E a ltac:(lia)). rewrite Nat.eqb_refl in E.
      assert (X : existsb nonzero (nth a m' []) = true). { apply existsb_exists. exists (entry m' a (l a)). split; [apply nth_In; rewrite C1 by lia; exact LC|]. rewrite E. reflexivity. } rewrite X. reflexivity. }
    assert (B : forall s, (forall a, In a s -> (r <= a < n)%nat) -> flat_map (fun mr => if existsb nonzero (fst mr) then [] else [group (map fst qs) (snd mr)]) (map (fun k => (nth k m' [], nth k ident' [])) s) = map (fun a => group (map fst qs) (nth a ident' [])) s).
    { induction s as [|a s IH]; intro H; [reflexivity|]. cbn [map flat_map fst snd]. rewrite IH by (intros b I; apply H; right; exact I). pose proof (H a (or_introl eq_refl)) as LA.
      assert (X : existsb nonzero (nth a m' []) = false). { destruct (existsb nonzero (nth a m' [])) eqn:EX; [|reflexivity]. exfalso. apply existsb_exists in EX. destruct EX as (x & I & NZ). apply (In_nth _ _ 0) in I. destruct I as (j & J & EJ). rewrite C1 in J by lia. pose proof (P2 a j LA J) as Z. unfold entry in Z. rewrite EJ in Z. apply nonzero_true in NZ. apply NZ, Z. } rewrite X. reflexivity. }
    rewrite A by (intros a I; apply in_seq in I; lia). rewrite B by (intros a I; apply in_seq in I; lia). reflexivity.
  Qed.
  Hypothesis NN : NoDup (map fst qs).
  Lemma name_nth k : nth k (map fst qs) ""%string = fst (nth k qs d0). Proof. rewrite <- (map_nth fst). reflexivity. Qed.
  Lemma power_sum x d : power_of qs x d = sum n (fun k => x (nth k (map fst qs) ""%string) * dimension_of d (snd (nth k qs d0))).
  Proof. unfold power_of. rewrite (total_nth _ qs d0). apply sum_ext. intros k _. rewrite name_nth. reflexivity. Qed.
  Lemma power_in x j : power_of qs x (nth j ds ""%string) = sum n (fun k => x (nth k (map fst qs) ""%string) * power k j). Proof. apply power_sum. Qed.
  Hypothesis COVER : forall q d, In q qs -> ~ In d ds -> dget d (snd q) = None.
  Lemma power_out x d : ~ In d ds -> power_of qs x d = 0.
  Proof. intro NI. rewrite power_sum. apply sum_zero. intros k K. unfold dimension_of. rewrite (COVER (nth k qs d0) d); [ring|apply nth_In; exact K|exact NI]. Qed.
  Lemma dimensionless_iff x : dimensionless qs x <-> forall j, (j < cols)%nat -> sum n (fun k => x (nth k (map fst qs) ""%string) * power k j) = 0.
  Proof.
    split; [intros H j _; rewrite <- power_in; apply H|]. intros H d. destruct (in_dec string_dec d ds) as [I|I]; [|apply power_out, I]. apply (In_nth _ _ ""%string) in I. destruct I as (j & J & <-). rewrite power_in. apply H, J.
  Qed.
  Theorem pi_spec : exists gs, pi_theorem qs ds = Ok gs /\ (forall g, In g gs -> dimensionless qs (exponent g)) /\
    (forall x, dimensionless qs x -> exists c, List.length c = List.length gs /\ forall name, In name (map fst qs) -> x name = combined gs c name) /\
    (forall c, List.length c = List.length gs -> (forall name, In name (map fst qs) -> combined gs c name = 0) -> Forall (fun v => v = 0) c) /\ (forall g, In g gs -> exists l, List.length l = List.length qs /\ g = group (map fst qs) l).
  Proof.
    destruct form as (m' & ident' & r & l & E & S1 & S2 & PR & SP & IN & RL & PV). pose proof (groups_of m' ident' r l S1 S2 RL PV) as G. set (names := map fst qs) in *. assert (LN : List.length names = n) by apply map_length. set (gs := map (fun a => group names (nth a ident' [])) (seq r (n - r))) in *. exists gs. split; [unfold pi_theorem; rewrite E; cbn [bind fst snd]; fold names; rewrite G; reflexivity|].
    assert (LG : List.length gs = (n - r)%nat) by (unfold gs; rewrite map_length, seq_length; reflexivity).
    assert (NZ : forall a, (a < n)%nat -> times (nth a ident' []) <> 0) by (intros a A; apply times_nonzero; intro Z; pose proof (proj2 S2 a A) as L; rewrite Z in L; cbn in L; lia).
    assert (GE : forall a k, (a < n)%nat -> (k < n)%nat -> exponent (group names (nth a ident' [])) (nth k names ""%string) = times (nth a ident' []) * entry ident' a k) by (intros a k A K; apply group_exponent; [exact NN|rewrite LN, (proj2 S2 a A); reflexivity|rewrite LN; exact K]).
    assert (GN : forall t, (t < n - r)%nat -> nth t gs [] = group names (nth (r + t) ident' [])) by (intros t T; unfold gs; rewrite (nth_indep _ [] (group names (nth 0 ident' []))) by (rewrite map_length, seq_length; exact T); rewrite (map_nth (fun a => group names (nth a ident' []))), seq_nth by exact T; reflexivity).
    assert (CS : forall c k, List.length c = List.length gs -> (k < n)%nat -> combined gs c (nth k names ""%string) = sum n (fun a => (if (a <? r)%nat then 0 else nth (a - r) c 0 * times (nth a ident' [])) * entry ident' a k)).
    { intros c k L K. rewrite combined_sum by exact L. rewrite LG. rewrite <- (sum_shift n r (fun t => nth t c 0 * exponent (nth t gs []) (nth k names ""%string)) RL). apply sum_ext. intros a A. destruct (Nat.ltb_spec a r) as [AR|AR]; [ring|]. rewrite GN by lia. replace (r + (a - r))%nat with a by lia. rewrite (GE a k A K). ring. }
    split; [|split; [|split; [|intros g I; unfold gs in I; apply in_map_iff in I; destruct I as (a & <- & A); apply in_seq in A; exists (nth a ident' []); split; [apply (proj2 S2); lia|reflexivity]]]].
    - intros g I. unfold gs in I. apply in_map_iff in I. destruct I as (a & <- & A). apply in_seq in A. apply dimensionless_iff. intros j J. fold names. rewrite (sum_ext n _ (fun k => times (nth a ident' []) * (entry ident' a k * power k j))) by (intros k K; rewrite (GE a k ltac:(lia) K); ring). rewrite sum_scale, <- (PR a j ltac:(lia) J), (proj2 PV a j ltac:(lia) J). ring.
    - intros x X. rewrite dimensionless_iff in X. fold names in X. destruct (SP (fun k => x (nth k names ""%string))) as [y Y].
      assert (Z : forall s, (s < r)%nat -> y s = 0).
      { intros s SR. destruct (proj1 PV s SR) as [LS C]. rewrite <- (X (l s) LS). rewrite (sum_ext n _ (fun k => sum n (fun a => y a * entry ident' a k * power k (l s)))).
        - rewrite sum_swap. rewrite (sum_ext n _ (fun a => y a * (if Nat.eqb a s then 1 else 0))); [symmetry; apply (delta_sum' y s); lia|]. intros a A. rewrite <- (C a A), (PR a (l s) A LS), <- sum_scale. apply sum_ext. intros k _. ring.
        - intros k K. rewrite (Y k K). rewrite Qcmult_comm, <- sum_scale. apply sum_ext. intros a _. ring. }
      exists (map (fun t => y (r + t)%nat / times (nth (r + t) ident' [])) (seq 0 (n - r))). split; [rewrite map_length, seq_length; symmetry; exact LG|]. intros name I. apply (In_nth _ _ ""%string) in I. destruct I as (k & K & <-). rewrite LN in K. rewrite CS by (try (rewrite map_length, seq_length; symmetry; exact LG); exact K). rewrite (Y k K). apply sum_ext. intros a A. destruct (Nat.ltb_spec a r) as [AR|AR]; [rewrite (Z a AR); ring|]. rewrite nth_row by lia. replace (r + (a - r))%nat with a by lia. field. apply NZ, A.
    - intros c L H. assert (Y0 := IN (fun a => if (a <? r)%nat then 0 else nth (a - r) c 0 * times (nth a ident' []))). cbn beta in Y0. assert (Y1 : forall k, (k < n)%nat -> sum n (fun a => (if (a <? r)%nat then 0 else nth (a - r) c 0 * times (nth a ident' [])) * entry ident' a k) = 0) by (intros k K; rewrite <- (CS c k L K); apply H; apply nth_In; rewrite LN; exact K). specialize (Y0 Y1).
      apply Forall_forall. intros v I. apply (In_nth _ _ 0) in I. destruct I as (t & T & <-). specialize (Y0 (r + t)%nat ltac:(lia)). rewrite (proj2 (Nat.ltb_ge (r + t) r)) in Y0 by lia. replace (r + t - r)%nat with t in Y0 by lia. apply Qcmult_integral in Y0. destruct Y0 as [Y0|Y0]; [exact Y0|]. exfalso. revert Y0. apply NZ. lia.
  Qed.
End Pi.

(** ** signs *)
Lemma max_den_positive l : l <> [] -> (0 < max_den l)%Z.
Proof. intro N. unfold max_den. destruct l as [|x l]; [contradiction|]. cbn [map fold_right]. lia. Qed.
Lemma compare_times l x : Qccompare (times l * x) 0 = (sign l * max_den l * Qnum (this x) ?= 0)%Z.
Proof.
  unfold Qccompare. assert (E : (this (times l * x) == inject_Z (sign l * max_den l) * this x)%Q) by (unfold times, Qcmult, Q2Qc; cbn [this]; rewrite !Qred_correct, !this_ofZ, inject_Z_mult; reflexivity).
  rewrite (Qcompare_comp _ _ E _ _ (Qeq_refl (this 0))). unfold Qcompare. cbn. f_equal. lia.
Qed.
Lemma compare_own x : Qccompare x 0 = (Qnum (this x) ?= 0)%Z.
Proof. unfold Qccompare, Qcompare. cbn. f_equal. lia. Qed.
Lemma group_signs names l : List.length names = List.length l -> (List.length (filter negative (map snd (group names l))) <= List.length (filter positive (map snd (group names l))))%nat.
Proof.
  intro L. rewrite (proj2 (group_value names l 0)).
  assert (V : forall P (ns : list string) xs, List.length ns = List.length xs -> (forall x, P x = true -> Qnum (this x) <> 0%Z) -> List.length (filter P (map snd (flat_map (fun nf : string * Qc => if Z.eqb (Qnum (this (snd nf))) 0 then [] else [(fst nf, ofZ (sign l) * ofZ (Qnum (this (snd nf))) * ofZ (max_den l) / ofZ (Zpos (Qden (this (snd nf)))))]) (combine ns xs)))) = List.length (filter (fun x => P (times l * x)) xs)).
  { intros P ns xs. revert ns. induction xs as [|x xs IH]; intros [|m ns] LL H; try discriminate; [reflexivity|]. cbn [combine flat_map fst snd filter]. cbn in LL. specialize (IH ns ltac:(lia) H). destruct (Z.eqb_spec (Qnum (this x)) 0) as [Z|Z].
    - cbn [app]. apply num_zero in Z. subst x. rewrite IH. destruct (P (times l * 0)) eqn:E; [|reflexivity]. exfalso. apply (H _ E). replace (times l * 0) with (Q2Qc 0) by ring. reflexivity.
    - cbn [app map snd filter]. rewrite (proj1 (group_value names l x)). destruct (P (times l * x)); cbn [List.length]; rewrite IH; reflexivity. }
  rewrite !V by (try exact L; intros x; unfold negative, positive; rewrite compare_own; intro H; intro Z; rewrite Z in H; discriminate).
  destruct l as [|x0 l0] eqn:EL; [cbn; lia|]. rewrite <- EL in *. assert (M : (0 < max_den l)%Z) by (apply max_den_positive; rewrite EL; discriminate).
  assert (FN : forall P Q (xs : row), (forall x, P x = Q x) -> List.length (filter P xs) = List.length (filter Q xs)) by (intros P Q xs H; f_equal; apply filter_ext, H).
  unfold sign in *. destruct (Nat.ltb_spec (List.length (filter positive l)) (List.length (filter negative l))) as [C|C].
  - rewrite (FN (fun x => negative (times l * x)) positive), (FN (fun x => positive (times l * x)) negative); [lia| |]; intro x; unfold negative, positive; rewrite compare_times, compare_own; unfold sign; rewrite (proj2 (Nat.ltb_lt _ _) C); destruct (Z.compare_spec (Qnum (this x)) 0) as [H|H|H]; destruct (Z.compare_spec (-1 * max_den l * Qnum (this x)) 0) as [K|K|K]; try reflexivity; exfalso; nia.
  - rewrite (FN (fun x => negative (times l * x)) negative), (FN (fun x => positive (times l * x)) positive); [lia| |]; intro x; unfold negative, positive; rewrite compare_times, compare_own; unfold sign; rewrite (proj2 (Nat.ltb_ge _ _) C); destruct (Z.compare_spec (Qnum (this x)) 0) as [H|H|H]; destruct (Z.compare_spec (1 * max_den l * Qnum (this x)) 0) as [K|K|K]; try reflexivity; exfalso; nia.
Qed.
