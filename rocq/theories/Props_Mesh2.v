(** * Airfoils as masks of cells: property C213 *)
From Coq Require Import Reals ZArith Lra Lia Bool List Sorted.
From Verif Require Import PyBase M_Mesh2.
Import ListNotations.
Local Open Scope R_scope.

(** a cell of the mask that is marked *)
Definition marked (m : list (list bool)) (i j : nat) : Prop := exists c, nth_error m i = Some c /\ nth_error c j = Some true.

Lemma floor_le r z : (z <= floorZ r)%Z <-> IZR z <= r.
Proof.
  unfold floorZ. destruct (base_Int_part r) as [A B]. split; intro H.
  - apply IZR_le in H. lra.
  - apply Z.lt_succ_r. apply lt_IZR. rewrite succ_IZR. lra.
Qed.
Lemma ceil_le r z : (ceilZ r <= z)%Z <-> r <= IZR z.
Proof. unfold ceilZ. pose proof (floor_le (- r) (- z)) as F. unfold floorZ in F. rewrite opp_IZR in F. split; intro H; [assert (- z <= Int_part (- r))%Z by lia; apply F in H0; lra|]. assert (- z <= Int_part (- r))%Z by (apply F; lra). lia. Qed.
Lemma floor_lt r z : (floorZ r < z)%Z <-> r < IZR z.
Proof. pose proof (floor_le r z). split; intro; [apply Rnot_le_lt; intro Q; apply H in Q; lia|]. apply Z.nle_gt. intro Q. apply H in Q. lra. Qed.
Lemma lt_ceil r z : (z < ceilZ r)%Z <-> IZR z < r.
Proof. pose proof (ceil_le r z). split; intro; [apply Rnot_le_lt; intro Q; apply H in Q; lia|]. apply Z.nle_gt. intro Q. apply H in Q. lra. Qed.
Lemma ceil_IZR z : ceilZ (IZR z) = z.
Proof. apply Z.le_antisymm; [apply ceil_le; lra|]. apply Z.nlt_ge. intro Q. assert (Q' : (ceilZ (IZR z) <= z - 1)%Z) by lia. apply ceil_le in Q'. rewrite minus_IZR in Q'. lra. Qed.
Lemma ceil_mono a b : a <= b -> (ceilZ a <= ceilZ b)%Z.
Proof. intro H. apply ceil_le. apply Rle_trans with b; [exact H|]. apply ceil_le. lia. Qed.

Lemma fold_min : forall l a, (forall x, In x (a :: l) -> fold_left Rmin l a <= x) /\ In (fold_left Rmin l a) (a :: l).
Proof.
  induction l as [|b l IH]; intro a; cbn [fold_left]; [split; [intros x [E|[]]; lra|left; reflexivity]|]. destruct (IH (Rmin a b)) as [L I]. split.
  - intros x [E|[E|E]]; [subst; apply Rle_trans with (Rmin x b); [apply L; left; reflexivity|apply Rmin_l]|subst; apply Rle_trans with (Rmin a x); [apply L; left; reflexivity|apply Rmin_r]|apply L; right; exact E].
  - destruct I as [E|E]; [|right; right; exact E]. rewrite <- E. unfold Rmin. destruct (Rle_dec a b); [left|right; left]; reflexivity.
Qed.
Lemma fold_max : forall l a, (forall x, In x (a :: l) -> x <= fold_left Rmax l a) /\ In (fold_left Rmax l a) (a :: l).
Proof.
  induction l as [|b l IH]; intro a; cbn [fold_left]; [split; [intros x [E|[]]; lra|left; reflexivity]|]. destruct (IH (Rmax a b)) as [L I]. split.
  - intros x [E|[E|E]]; [subst; apply Rle_trans with (Rmax x b); [apply Rmax_l|apply L; left; reflexivity]|subst; apply Rle_trans with (Rmax a x); [apply Rmax_r|apply L; left; reflexivity]|apply L; right; exact E].
  - destruct I as [E|E]; [|right; right; exact E]. rewrite <- E. unfold Rmax. destruct (Rle_dec a b); [right; left|left]; reflexivity.
Qed.
(** what the extremes are *)
Theorem C213_extremes : forall l v, (least l = Ok v <-> In v l /\ forall x, In x l -> v <= x) /\ (greatest l = Ok v <-> In v l /\ forall x, In x l -> x <= v).
Proof.
  intros [|a l] v; cbn [least greatest]; [split; (split; [discriminate|intros [[] _]])|]. destruct (fold_min l a) as [A B]. destruct (fold_max l a) as [C D]. split; split.
  - intro H; inversion H; subst. split; assumption.
  - intros [I L]. f_equal. apply Rle_antisym; [apply A; exact I|apply L; exact B].
  - intro H; inversion H; subst. split; assumption.
  - intros [I L]. f_equal. apply Rle_antisym; [apply L; exact D|apply C; exact I].
Qed.

Lemma last_sorted : forall l a, StronglySorted Rlt (a :: l) -> forall x, In x (a :: l) -> x <= last (a :: l) 0.
Proof.
  induction l as [|b l IH]; intros a S x I; [destruct I as [E|[]]; cbn; lra|]. inversion S as [|u v S1 S2]; subst. change (last (a :: b :: l) 0) with (last (b :: l) 0). destruct I as [E|E]; [|apply IH; assumption].
  subst. inversion S2; subst. apply Rle_trans with b; [lra|]. apply IH; [exact S1|left; reflexivity].
Qed.
Lemma last_in : forall l (a : R), In (last (a :: l) 0) (a :: l).
Proof. induction l as [|b l IH]; intro a; [left; reflexivity|]. change (last (a :: b :: l) 0) with (last (b :: l) 0). right. apply IH. Qed.
Lemma steps_pos : forall l, StronglySorted Rlt l -> forall d, In d (steps l) -> 0 < d.
Proof.
  induction l as [|a l IH]; intros S d I; [destruct I|]. destruct l as [|b l]; [destruct I|]. inversion S as [|u v S1 S2]; subst. destruct I as [I|I]; [inversion S2; subst; lra|]. apply IH; [exact S1|exact I].
Qed.
(** integers that do not decrease *)
Definition rising (X : list Z) : Prop := StronglySorted Z.le X.
Lemma rising_map s : 0 <= s -> forall xs, StronglySorted Rlt xs -> rising (map (fun x => ceilZ (s * x)) xs).
Proof.
  intros S xs H. induction H as [|a l H1 IH H2]; [constructor|]. cbn. constructor; [exact IH|]. apply Forall_forall. intros z Z. apply in_map_iff in Z. destruct Z as [x [<- I]]. rewrite Forall_forall in H2. apply ceil_mono. apply Rmult_le_compat_l; [exact S|]. left. apply H2. exact I.
Qed.
Lemma repeats_nonneg : forall X, rising X -> forall r, In r (repeats X) -> (0 <= r)%Z.
Proof.
  unfold repeats. induction X as [|a X IH]; intros S r I; [destruct I as [E|[]]; lia|]. destruct X as [|b X]; [destruct I as [E|[]]; lia|]. inversion S as [|u v S1 S2]; subst. cbn [stepsZ app] in I. destruct I as [I|I]; [inversion S2; subst; lia|]. apply IH; [exact S1|exact I].
Qed.
Lemma spread_ok : forall X lo hi a, rising (a :: X) -> length lo = length (a :: X) -> length hi = length (a :: X) -> exists cols, spread (repeats (a :: X)) lo hi = Ok cols /\ Z.of_nat (length cols) = (last (a :: X) 0 - a)%Z /\
  (forall n c, nth_error cols n = Some c <-> exists k x x' l h, nth_error (a :: X) k = Some x /\ nth_error (a :: X) (S k) = Some x' /\ nth_error lo k = Some l /\ nth_error hi k = Some h /\ (x <= Z.of_nat n + a < x')%Z /\ c = (l, h)).
Proof.
  induction X as [|b X IH]; intros lo hi a S Ll Lh.
  - destruct lo as [|l [|]]; try discriminate. destruct hi as [|h [|]]; try discriminate. exists []. split; [reflexivity|]. split; [cbn; lia|]. intros n c. split; [destruct n; discriminate|]. intros (k & x & x' & l' & h' & _ & E & _). destruct k as [|[|]]; discriminate.
  - destruct lo as [|l lo]; [discriminate|]. destruct hi as [|h hi]; [discriminate|]. inversion S as [|u v S1 S2]; subst. assert (AB : (a <= b)%Z) by (inversion S2; assumption).
    destruct (IH lo hi b S1 ltac:(cbn in *; lia) ltac:(cbn in *; lia)) as (cols & E & N & K). exists (repeat (l, h) (Z.to_nat (b - a)) ++ cols).
    change (repeats (a :: b :: X)) with ((b - a)%Z :: repeats (b :: X)). cbn [spread]. replace (b - a <? 0)%Z with false by (symmetry; apply Z.ltb_ge; lia). rewrite E. split; [reflexivity|]. split.
    { rewrite app_length, repeat_length. change (last (a :: b :: X) 0%Z) with (last (b :: X) 0%Z). lia. }
    assert (R0 : forall k x, nth_error (b :: X) k = Some x -> (b <= x)%Z). { intros k x Q. destruct k; [inversion Q; lia|]. cbn [nth_error] in Q. apply nth_error_In in Q. inversion S1 as [|u v S3 S4]; subst. rewrite Forall_forall in S4. apply S4. exact Q. }
    intros n c. destruct (lt_dec n (Z.to_nat (b - a))) as [L|L].
    + rewrite nth_error_app1 by (rewrite repeat_length; exact L). split.
      * intro Q. apply nth_error_In in Q. apply repeat_spec in Q. subst. exists O, a, b, l, h. repeat split; try reflexivity; lia.
      * intros (k & x & x' & l' & h' & K1 & K2 & K3 & K4 & K5 & ->). destruct k as [|k].
        -- cbn in K3, K4. inversion K3; inversion K4; subst. rewrite (nth_error_nth' _ (l', h')) by (rewrite repeat_length; exact L). f_equal. apply nth_repeat.
        -- cbn [nth_error] in K1. apply R0 in K1. lia.
    + rewrite nth_error_app2 by (rewrite repeat_length; lia). rewrite repeat_length, K. split.
      * intros (k & x & x' & l' & h' & K1 & K2 & K3 & K4 & K5 & ->). exists (Datatypes.S k), x, x', l', h'. repeat split; try assumption; lia.
      * intros (k & x & x' & l' & h' & K1 & K2 & K3 & K4 & K5 & ->). destruct k as [|k]; [cbn in K1, K2; inversion K1; inversion K2; subst; lia|]. exists k, x, x', l', h'. repeat split; try assumption; lia.
Qed.
Lemma last_map_ceil (f : R -> Z) : forall xs (a : R), last (map f (a :: xs)) 0%Z = f (last (a :: xs) 0).
Proof. induction xs as [|b xs IH]; intro a; [reflexivity|]. change (last (map f (a :: b :: xs)) 0%Z) with (last (map f (b :: xs)) 0%Z). rewrite IH. reflexivity. Qed.
Lemma nth_upto ny j : (Z.of_nat j < ny)%Z -> nth_error (upto ny) j = Some (Z.of_nat j).
Proof.
  intro H. unfold upto. rewrite nth_error_map. assert (L : (j < length (seq 0 (Z.to_nat ny)))%nat) by (rewrite seq_length; lia). rewrite (nth_error_nth' _ O L), seq_nth by (rewrite seq_length in L; exact L). reflexivity.
Qed.
(** an airfoil whose places increase from 0: as many columns as the shortest step goes into the chord, rounded up; a cell is marked exactly if it lies in a row of the mask and
    strictly between the surfaces at the last place before it, everything measured in cells from the lowest point *)
Theorem C213_cells : forall r lo hi d top bottom, let xs := 0 :: r in let len := last xs 0 in r <> [] -> StronglySorted Rlt xs -> length lo = length xs -> length hi = length xs ->
  least (steps xs) = Ok d -> greatest hi = Ok top -> least lo = Ok bottom ->
  let nx := ceilZ (len / d) in let s := IZR nx / len in let ny := ceilZ (IZR nx * (top - bottom)) in
  0 < len /\ 0 < s /\ exists m, meshgrid xs lo hi = Ok (Some m) /\ Z.of_nat (length m) = nx /\
  forall i j, marked m i j <-> (Z.of_nat j < ny)%Z /\ exists k x x' l h, nth_error xs k = Some x /\ nth_error xs (S k) = Some x' /\ nth_error lo k = Some l /\ nth_error hi k = Some h /\
    s * x <= INR i < s * x' /\ s * (l - bottom) < INR j < s * (h - bottom).
Proof.
  intros r lo hi d top bottom xs len N S Ll Lh Hd Ht Hb nx s ny.
  assert (D0 : 0 < d) by (apply (proj1 (C213_extremes _ _)) in Hd; destruct Hd as [I _]; exact (steps_pos xs S d I)).
  assert (L0 : 0 < len). { unfold len, xs. destruct r as [|b r]; [congruence|]. inversion S as [|u v S1 S2]; subst. inversion S2; subst. apply Rlt_le_trans with b; [assumption|]. change (last (0 :: b :: r) 0) with (last (b :: r) 0). apply last_sorted; [exact S1|left; reflexivity]. }
  assert (NX : (0 < nx)%Z) by (unfold nx; apply lt_ceil; apply Rdiv_lt_0_compat; assumption). assert (NXR : 0 < IZR nx) by (apply (IZR_lt 0); exact NX). assert (S0 : 0 < s) by (apply Rdiv_lt_0_compat; assumption).
  split; [exact L0|]. split; [exact S0|].
  assert (HL : greatest xs = Ok len) by (apply (proj2 (C213_extremes _ _)); split; [apply last_in|intros x I; apply last_sorted; assumption]).
  set (X := map (fun x => ceilZ (s * x)) xs). assert (RX : rising X) by (apply rising_map; [lra|exact S]).
  assert (X0 : ceilZ (s * 0) = 0%Z) by (rewrite Rmult_0_r; apply (ceil_IZR 0)).
  assert (EX : X = 0%Z :: map (fun x => ceilZ (s * x)) r) by (unfold X, xs; cbn [map]; rewrite X0; reflexivity).
  set (L := map (fun y => floorZ (s * (y - bottom))) lo). set (H := map (fun y => ceilZ (s * (y - bottom))) hi).
  rewrite EX in RX. destruct (spread_ok (map (fun x => ceilZ (s * x)) r) L H 0%Z RX) as (cols & EC & NC & KC).
  { unfold L. rewrite map_length, Ll. unfold xs. cbn. rewrite map_length. reflexivity. }
  { unfold H. rewrite map_length, Lh. unfold xs. cbn. rewrite map_length. reflexivity. }
  rewrite <- EX in *.
  assert (LX : last X 0%Z = nx). { unfold X, xs. rewrite (last_map_ceil (fun x => ceilZ (s * x)) r 0). fold xs. fold len. replace (s * len) with (IZR nx) by (unfold s; field; lra). apply ceil_IZR. }
  rewrite LX in NC. exists (map (column ny) cols). split; [|split].
  - unfold meshgrid. rewrite HL. cbn [bind]. rewrite Hd. cbn [bind]. rewrite Ht. cbn [bind]. rewrite Hb. cbn [bind]. destruct (Req_EM_T d 0); [lra|]. destruct (Req_EM_T len 0); [lra|]. cbv zeta. rewrite (Rabs_right d) by lra. fold nx. fold s. fold X. fold L. fold H. fold ny.
    replace (existsb (fun r0 : Z => (r0 <? 0)%Z) (repeats X)) with false.
    2:{ symmetry. apply not_true_is_false. intro Q. apply existsb_exists in Q. destruct Q as [z [I Q]]. apply Z.ltb_lt in Q. apply (repeats_nonneg X RX) in I. lia. }
    rewrite EC. cbn [bind]. unfold fill. replace (Z.of_nat (length cols) =? Z.max 0 nx)%Z with true by (symmetry; apply Z.eqb_eq; lia). reflexivity.
  - rewrite map_length. lia.
  - intros i j. assert (ci : forall x, (ceilZ (s * x) <= Z.of_nat i)%Z <-> s * x <= INR i) by (intro x; rewrite ceil_le, INR_IZR_INZ; reflexivity). assert (ci' : forall x, (Z.of_nat i < ceilZ (s * x))%Z <-> INR i < s * x) by (intro x; rewrite lt_ceil, INR_IZR_INZ; reflexivity).
    assert (cj : forall y, (floorZ (s * (y - bottom)) < Z.of_nat j)%Z <-> s * (y - bottom) < INR j) by (intro y; rewrite floor_lt, INR_IZR_INZ; reflexivity). assert (cj' : forall y, (Z.of_nat j < ceilZ (s * (y - bottom)))%Z <-> INR j < s * (y - bottom)) by (intro y; rewrite lt_ceil, INR_IZR_INZ; reflexivity).
    split.
    + intros (c & C1 & C2). rewrite nth_error_map in C1. destruct (nth_error cols i) as [[a b]|] eqn:Q; [|discriminate]. cbn in C1. inversion C1; subst c. apply KC in Q. destruct Q as (k & x & x' & l & h & K1 & K2 & K3 & K4 & K5 & K6). inversion K6; subst a b.
      unfold column in C2. rewrite nth_error_map in C2. assert (J : (Z.of_nat j < ny)%Z). { apply Z.nle_gt. intro J. replace (nth_error (upto ny) j) with (@None Z) in C2; [discriminate|]. symmetry. apply nth_error_None. unfold upto. rewrite map_length, seq_length. lia. }
      split; [exact J|]. rewrite (nth_upto ny j J) in C2. cbn in C2. inversion C2 as [C3]. apply andb_true_iff in C3. destruct C3 as [C3 C4]. apply Z.ltb_lt in C3, C4.
      unfold X in K1, K2. unfold L in K3. unfold H in K4. rewrite nth_error_map in K1, K2, K3, K4.
      destruct (nth_error xs k) as [u|] eqn:U; [|discriminate]. destruct (nth_error xs (Datatypes.S k)) as [u'|] eqn:U'; [|discriminate]. destruct (nth_error lo k) as [y|] eqn:Y; [|discriminate]. destruct (nth_error hi k) as [z|] eqn:Z; [|discriminate].
      cbn in K1, K2, K3, K4. inversion K1; inversion K2; inversion K3; inversion K4; subst. exists k, u, u', y, z. rewrite Z.add_0_r in K5. destruct K5 as [K5 K7]. repeat split; try assumption; try reflexivity; [apply ci; exact K5|apply ci'; exact K7|apply cj; exact C3|apply cj'; exact C4].
    + intros [J (k & x & x' & l & h & K1 & K2 & K3 & K4 & [K5 K6] & [K7 K8])]. assert (Q : nth_error cols i = Some (floorZ (s * (l - bottom)), ceilZ (s * (h - bottom)))).
      { apply KC. exists k, (ceilZ (s * x)), (ceilZ (s * x')), (floorZ (s * (l - bottom))), (ceilZ (s * (h - bottom))). unfold X, L, H. rewrite !nth_error_map, K1, K2, K3, K4. cbn [option_map]. rewrite Z.add_0_r. repeat split; [apply ci; exact K5|apply ci'; exact K6]. }
      eexists. rewrite nth_error_map, Q. split; [reflexivity|]. unfold column. rewrite nth_error_map, (nth_upto ny j J). cbn. f_equal. apply andb_true_iff. split; apply Z.ltb_lt; [apply cj; exact K7|apply cj'; exact K8].
Qed.
(** the rows hold the whole airfoil if its chord is 1 or more; finding: else they may not, since their number is not that of cells in the height but the chord times that *)
Theorem C213_rows : forall len n top bottom h j, 1 <= len -> 0 < IZR n -> bottom <= h <= top -> INR j < IZR n / len * (h - bottom) -> (Z.of_nat j < ceilZ (IZR n * (top - bottom)))%Z.
Proof.
  intros len n top bottom h j L N H J. apply lt_ceil. rewrite <- INR_IZR_INZ. apply Rlt_le_trans with (IZR n / len * (h - bottom)); [exact J|]. apply Rmult_le_compat; try lra; [apply Rmult_le_pos; [lra|left; apply Rinv_0_lt_compat; lra]|].
  apply Rmult_le_reg_r with len; [lra|]. unfold Rdiv. rewrite Rmult_assoc, Rinv_l by lra. nra.
Qed.
Theorem C213_chord_refuted : exists m, meshgrid [0; 1 / 4; 1 / 2] [0; 0; 0] [1; 1; 1] = Ok (Some m) /\ ~ marked m 0 3 /\ (let s := IZR (ceilZ (1 / 2 / (1 / 4))) / (1 / 2) in s * 0 <= INR 0 < s * (1 / 4) /\ s * (0 - 0) < INR 3 < s * (1 - 0)).
Proof.
  assert (C : ceilZ (1 / 2 / (1 / 4)) = 2%Z) by (replace (1 / 2 / (1 / 4)) with (IZR 2) by lra; apply ceil_IZR).
  destruct (C213_cells [1 / 4; 1 / 2] [0; 0; 0] [1; 1; 1] (1 / 4) 1 0) as (_ & _ & m & E & _ & K).
  - discriminate.
  - repeat constructor; lra.
  - reflexivity.
  - reflexivity.
  - apply (proj1 (C213_extremes _ _)). cbn. split; [left; lra|]. intros x [<-|[<-|[]]]; lra.
  - apply (proj2 (C213_extremes _ _)). cbn. split; [left; lra|]. intros x [<-|[<-|[<-|[]]]]; lra.
  - apply (proj1 (C213_extremes _ _)). cbn. split; [left; lra|]. intros x [<-|[<-|[<-|[]]]]; lra.
  - exists m. split; [exact E|]. cbn [last] in K. rewrite C in K. rewrite C. split.
    + intro M. apply K in M. destruct M as [M _]. replace (2 * (1 - 0)) with (IZR 2) in M by ring. rewrite ceil_IZR in M. cbn in M. lia.
    + cbn [INR]. lra.
Qed.
(** two backward steps in a row are refused with a message *)
Theorem C213_backward : forall xs lo hi d len top bottom, greatest xs = Ok len -> least (steps xs) = Ok d -> greatest hi = Ok top -> least lo = Ok bottom -> d <> 0 -> len <> 0 ->
  let s := IZR (ceilZ (len / Rabs d)) / len in (exists pre a b post, stepsZ (map (fun x => ceilZ (s * x)) xs) = pre ++ a :: b :: post /\ (a < 0)%Z /\ (b < 0)%Z) -> meshgrid xs lo hi = Ok None.
Proof.
  intros xs lo hi d len top bottom H1 H2 H3 H4 D L s (pre & a & b & post & E & A & B). unfold meshgrid. rewrite H1, H2, H3, H4. cbn [bind]. destruct (Req_EM_T d 0); [contradiction|]. destruct (Req_EM_T len 0); [contradiction|]. cbv zeta. fold s. unfold repeats. rewrite E.
  assert (Q : forall tail, existsb (fun r => (r <? 0)%Z) ((pre ++ a :: b :: post) ++ tail) = true) by (intro tail; apply existsb_exists; exists a; split; [apply in_or_app; left; apply in_or_app; right; left; reflexivity|apply Z.ltb_lt; exact A]). rewrite Q.
  assert (SQ : forall tail, sequential ((pre ++ a :: b :: post) ++ tail) = true); [|rewrite SQ; reflexivity]. intro tail. clear - A B. induction pre as [|p pre IH]; cbn [app].
  - cbn [sequential]. apply Z.ltb_lt in A, B. rewrite A, B. reflexivity.
  - cbn [app] in IH. destruct (pre ++ a :: b :: post) as [|x y] eqn:Y; [destruct pre; discriminate|]. cbn [app] in *. cbn [sequential]. change (match y ++ tail with [] => false | b0 :: _ => (x <? 0)%Z && (b0 <? 0)%Z || sequential (y ++ tail) end) with (sequential (x :: y ++ tail)). rewrite IH. apply orb_true_r.
Qed.
Example C213_backward_case : exists pre a b post, stepsZ [0; 5; 3; 1; 6]%Z = pre ++ a :: b :: post /\ (a < 0)%Z /\ (b < 0)%Z.
Proof. exists [5%Z], (-2)%Z, (-2)%Z, [5%Z]. cbn. repeat split; lia. Qed.
Print Assumptions C213_extremes.
Print Assumptions C213_cells.
Print Assumptions C213_rows.
Print Assumptions C213_chord_refuted.
Print Assumptions C213_backward.
