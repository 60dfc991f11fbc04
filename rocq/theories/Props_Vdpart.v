(** * Panels of one wing, and the equivalent area due to lift: properties C211 and C212 *)
From Coq Require Import Reals ZArith Lra Lia Bool List Sorted Permutation.
From Verif Require Import PyBase M_Vdpart.
Import ListNotations.

(** ** C211 *)
(** a half has as many panels as it has along the chord times along the span, and that fits in 16 bits *)
Definition sized {P} (b : block P) : Prop := (0 <= b_cw b /\ 0 <= b_sw b /\ b_cw b * b_sw b <= 32767 /\ Z.of_nat (length (b_pts b)) = b_cw b * b_sw b)%Z.
Definition panels {P} (bs : list (block P)) : list P := flat_map b_pts bs.
Lemma item_nat {A} (l : list A) i : item l (Z.of_nat i) = match nth_error l i with Some x => Ok x | None => Err IndexError end.
Proof. unfold item. replace (Z.of_nat i <? 0)%Z with false by (symmetry; apply Z.ltb_ge; lia). rewrite Nat2Z.id. reflexivity. Qed.
Lemma item_error {A} (l : list A) i e : item l i = Err e -> e = IndexError.
Proof. unfold item. destruct (i <? 0)%Z; [destruct (i + _ <? 0)%Z; [congruence|]|]; destruct (nth_error l _); congruence. Qed.
Lemma range_cons a b : (a < b)%Z -> range a b = a :: range (a + 1) b.
Proof.
  intro L. unfold range. replace (Z.to_nat (b - a)) with (S (Z.to_nat (b - (a + 1)))) by lia. cbn [seq map]. f_equal; [lia|]. rewrite <- seq_shift, map_map. apply map_ext. intro k. lia.
Qed.
Lemma range_nil a b : (b <= a)%Z -> range a b = [].
Proof. intro L. unfold range. replace (Z.to_nat (b - a)) with O by lia. reflexivity. Qed.
Lemma items_middle {A} : forall (y x z : list A), items (x ++ y ++ z) (range (Z.of_nat (length x)) (Z.of_nat (length x + length y))) = Ok y.
Proof.
  induction y as [|a y IH]; intros x z; [rewrite range_nil by (cbn; lia); reflexivity|]. rewrite range_cons by (cbn; lia). cbn [items]. rewrite item_nat, nth_error_app2 by lia. rewrite Nat.sub_diag. cbn [nth_error app bind].
  pose proof (IH (x ++ [a]) z) as Q. rewrite <- !app_assoc in Q. cbn [app] in Q. rewrite app_length in Q. cbn [length] in Q.
  replace (Z.of_nat (length x) + 1)%Z with (Z.of_nat (length x + 1)) by lia. replace (length x + length (a :: y))%nat with (length x + 1 + length y)%nat by (cbn; lia). rewrite Q. reflexivity.
Qed.
Lemma int16_id z : (0 <= z <= 32767)%Z -> int16 z = z.
Proof. intro H. unfold int16. rewrite Z.mod_small by lia. lia. Qed.
Lemma breaks_nth {P} : forall (bs : list (block P)) s i, Forall sized bs -> (i <= length bs)%nat ->
  nth_error (s :: cumsum s (products (map b_cw bs) (map b_sw bs))) i = Some (s + Z.of_nat (length (panels (firstn i bs))))%Z.
Proof.
  induction bs as [|b bs IH]; intros s i F L.
  - cbn in L. replace i with O by lia. cbn. f_equal. lia.
  - destruct i as [|i]; [cbn; f_equal; lia|]. inversion F as [|x y S F']; subst. destruct S as (S1 & S2 & S3 & S4). cbn [map products cumsum nth_error firstn panels flat_map].
    rewrite int16_id by nia. rewrite (IH _ i F') by (cbn in L; lia). unfold panels. rewrite app_length, <- S4. f_equal. lia.
Qed.
Lemma blocks_count {P} : forall ws : list (wing P), Z.of_nat (length (flat_map blocks ws)) = (Z.of_nat (length ws) + fold_right Z.add 0 (map (fun w : wing P => match snd w with Some _ => 1 | None => 0 end) ws))%Z.
Proof. induction ws as [|[b [m|]] ws IH]; [reflexivity| |]; cbn [flat_map blocks fst snd app length map fold_right]; rewrite ?app_length; cbn [length] in *; lia. Qed.
(** the panels of a wing are those of its own halves, in order; their indices begin after those of the wings before *)
Theorem C211_wing : forall P (pre post : list (wing P)) w bodies, Forall sized (flat_map blocks (pre ++ w :: post) ++ bodies) ->
  let a := length (panels (flat_map blocks pre)) in
  extract (layout (pre ++ w :: post) bodies) (length pre) = Ok (panels (blocks w), range (Z.of_nat a) (Z.of_nat (a + length (panels (blocks w)))), map b_cw (blocks w), map b_sw (blocks w)).
Proof.
  intros P pre post w bodies F a. set (rest := flat_map blocks post ++ bodies).
  assert (B : flat_map blocks (pre ++ w :: post) ++ bodies = flat_map blocks pre ++ blocks w ++ rest) by (unfold rest; rewrite flat_map_app; cbn [flat_map]; rewrite <- !app_assoc; reflexivity).
  unfold extract, layout. cbv zeta. cbn [v_pts v_cw v_sw v_sym]. unfold breaks. cbn [v_cw v_sw]. rewrite B in *. clear B.
  set (sy := fun w : wing P => match snd w with Some _ => 1%Z | None => 0%Z end).
  assert (SE : (Z.of_nat (length pre) + fold_right Z.add 0%Z (firstn (length pre) (map sy (pre ++ w :: post))))%Z = Z.of_nat (length (flat_map blocks pre))).
  { rewrite blocks_count. f_equal. f_equal. rewrite (map_app sy), firstn_app, map_length, Nat.sub_diag. cbn [firstn]. rewrite app_nil_r. apply firstn_all2. rewrite map_length. lia. }
  rewrite SE.
  set (pb := flat_map blocks pre) in *. rewrite item_nat, (breaks_nth (pb ++ blocks w ++ rest) 0%Z _ F) by (rewrite !app_length; lia). cbn [bind].
  assert (SI : item (map sy (pre ++ w :: post)) (Z.of_nat (length pre)) = Ok (sy w)) by (rewrite item_nat, (map_app sy), nth_error_app2 by (rewrite map_length; lia); rewrite map_length, Nat.sub_diag; reflexivity).
  rewrite SI. cbn [bind]. unfold sy.
  assert (E : (Z.of_nat (length pb) + 1 + (match snd w with Some _ => 1 | None => 0 end))%Z = Z.of_nat (length pb + length (blocks w))) by (destruct w as [b [m|]]; cbn; lia). rewrite E.
  rewrite item_nat, (breaks_nth (pb ++ blocks w ++ rest) 0%Z _ F) by (rewrite !app_length; lia). cbn [bind].
  assert (F1 : firstn (length pb) (pb ++ blocks w ++ rest) = pb) by (rewrite firstn_app, Nat.sub_diag, firstn_all; cbn [firstn]; apply app_nil_r).
  assert (F2 : firstn (length pb + length (blocks w)) (pb ++ blocks w ++ rest) = pb ++ blocks w).
  { rewrite app_assoc, firstn_app. replace (length pb + length (blocks w) - length (pb ++ blocks w))%nat with O by (rewrite app_length; lia). cbn [firstn]. rewrite app_nil_r. apply firstn_all2. rewrite app_length. lia. }
  assert (LE : length (panels (pb ++ blocks w)) = (length (panels pb) + length (panels (blocks w)))%nat) by (unfold panels; rewrite flat_map_app, app_length; reflexivity).
  rewrite F1, F2, LE, !Z.add_0_l. fold (panels pb) in a. fold a.
  assert (FP : flat_map b_pts (pb ++ blocks w ++ rest) = panels pb ++ panels (blocks w) ++ panels rest) by (rewrite !flat_map_app; reflexivity).
  rewrite FP. unfold a at 1 2. rewrite items_middle. cbn [bind]. rewrite !map_app.
  pose proof (items_middle (map b_cw (blocks w)) (map b_cw pb) (map b_cw rest)) as Q1. rewrite !map_length in Q1. rewrite Q1. cbn [bind].
  pose proof (items_middle (map b_sw (blocks w)) (map b_sw pb) (map b_sw rest)) as Q2. rewrite !map_length in Q2. rewrite Q2. reflexivity.
Qed.
(** the panels of all wings, one after the other, and those of the bodies are all panels *)
Theorem C211_all : forall P (ws : list (wing P)) bodies rs, Forall sized (flat_map blocks ws ++ bodies) ->
  Forall2 (fun k r => exists i c s, extract (layout ws bodies) k = Ok (r, i, c, s)) (seq 0 (length ws)) rs -> v_pts (layout ws bodies) = concat rs ++ panels bodies.
Proof.
  intros P ws bodies rs F H. unfold layout. cbn [v_pts]. rewrite flat_map_app. fold (panels bodies). f_equal.
  assert (G : forall post pre rs', ws = pre ++ post -> Forall2 (fun k r => exists i c s, extract (layout ws bodies) k = Ok (r, i, c, s)) (seq (length pre) (length post)) rs' -> flat_map b_pts (flat_map blocks post) = concat rs').
  { induction post as [|w post IH]; intros pre rs' E H'; cbn [length seq] in H'; inversion H' as [|k r ks rr H1 H2]; subst; [reflexivity|]. destruct H1 as (i & c & s & H1). rewrite (C211_wing P pre post w bodies F) in H1. inversion H1; subst.
    cbn [flat_map concat]. rewrite flat_map_app. f_equal. apply (IH (pre ++ [w]) rr); [rewrite <- app_assoc; reflexivity|]. rewrite app_length. cbn [length]. rewrite Nat.add_1_r. exact H2. }
  apply (G ws [] rs eq_refl H).
Qed.
(** there is no other wing *)
Theorem C211_beyond : forall P (ws : list (wing P)) bodies k, (length ws <= k)%nat -> extract (layout ws bodies) k = Err IndexError.
Proof.
  intros P ws bodies k L. unfold extract. cbv zeta. destruct (item (breaks (layout ws bodies)) _) as [a|e] eqn:E; cbn [bind]; [|apply item_error in E; subst; reflexivity].
  rewrite item_nat. unfold layout. cbn [v_sym]. replace (nth_error _ k) with (@None Z); [reflexivity|]. symmetry. apply nth_error_None. rewrite map_length. exact L.
Qed.
(** finding: of a half with 256 by 128 panels, whose number does not fit in 16 bits, there are none *)
Theorem C211_large_refuted : forall P (pts : list P), extract (layout [(Block 256 128 pts, None)] []) 0 = Ok ([], [], [256%Z], [128%Z]).
Proof. intros. reflexivity. Qed.
Example C211_case : extract (layout [(Block 1 2 [1; 2], Some (Block 1 2 [3; 4])); (Block 2 1 [5; 6], None)] [Block 1 1 [7]])%nat%Z 0 = Ok ([1; 2; 3; 4]%nat, [0; 1; 2; 3]%Z, [1; 1]%Z, [2; 2]%Z) /\
  Forall sized [Block 1 2 [1; 2]; Block 1 2 [3; 4]; Block 2 1 [5; 6]; Block 1 1 [7]]%nat%Z.
Proof. split; [reflexivity|]. repeat constructor; cbn; lia. Qed.

(** ** C212 *)
Local Open Scope R_scope.
(** lift of all panels whose place is not behind [x] *)
Fixpoint lift_upto (q mach aoa x : R) (ps : list panel) : R :=
  match ps with [] => 0 | p :: r => (if Rle_dec (shifted mach p) x then lift_of q aoa p else 0) + lift_upto q mach aoa x r end.
Fixpoint lift_all (q aoa : R) (ps : list panel) : R := match ps with [] => 0 | p :: r => lift_of q aoa p + lift_all q aoa r end.
Fixpoint upto (x : R) (t : list (R * R)) : R := match t with [] => 0 | (y, f) :: r => (if Rle_dec y x then f else 0) + upto x r end.
Fixpoint whole (t : list (R * R)) : R := match t with [] => 0 | (y, f) :: r => f + whole r end.
Definition increasing (t : list (R * R)) : Prop := StronglySorted Rlt (map fst t).
Lemma put_keys x f y : forall t, In y (map fst (put x f t)) <-> y = x \/ In y (map fst t).
Proof.
  induction t as [|[a g] t IH]; cbn; [intuition|]. destruct (Rlt_dec x a); [cbn; intuition|]. destruct (Req_EM_T x a); [cbn; subst; intuition|]. cbn. rewrite IH. intuition.
Qed.
Lemma put_sorted x f : forall t, increasing t -> increasing (put x f t).
Proof.
  induction t as [|[a g] t IH]; intro S; [repeat constructor|]. cbn. unfold increasing in *. cbn in S. inversion S as [|u v S1 S2]; subst. destruct (Rlt_dec x a) as [L|L].
  - cbn. constructor; [exact S|]. constructor; [exact L|]. rewrite Forall_forall in *. intros z Z. specialize (S2 z Z). lra.
  - destruct (Req_EM_T x a); [exact S|]. cbn. constructor; [apply IH; exact S1|]. rewrite Forall_forall in *. intros z Z. apply put_keys in Z. destruct Z as [Z|Z]; [lra|apply S2; exact Z].
Qed.
Lemma put_upto x f y : forall t, upto y (put x f t) = (if Rle_dec x y then f else 0) + upto y t.
Proof. induction t as [|[a g] t IH]; cbn; [reflexivity|]. destruct (Rlt_dec x a); [reflexivity|]. destruct (Req_EM_T x a); cbn; [subst; destruct (Rle_dec a y); ring|]. rewrite IH. ring. Qed.
Lemma put_whole x f : forall t, whole (put x f t) = f + whole t.
Proof. induction t as [|[a g] t IH]; cbn; [reflexivity|]. destruct (Rlt_dec x a); [reflexivity|]. destruct (Req_EM_T x a); cbn; [ring|]. rewrite IH. ring. Qed.
Lemma stations_ok q mach aoa : forall ps, increasing (stations q mach aoa ps) /\ (forall x, In x (map fst (stations q mach aoa ps)) <-> exists p, In p ps /\ shifted mach p = x) /\
  (forall x, upto x (stations q mach aoa ps) = lift_upto q mach aoa x ps) /\ whole (stations q mach aoa ps) = lift_all q aoa ps.
Proof.
  induction ps as [|p ps [I1 [I2 [I3 I4]]]]; cbn [stations fold_right lift_upto lift_all].
  - split; [constructor|]. split; [intro x; cbn; split; [intros []|intros [p [[] _]]]|]. split; reflexivity.
  - fold (stations q mach aoa ps). split; [apply put_sorted; exact I1|]. split; [intro x; rewrite put_keys, I2; split|].
    + intros [E|[p' [J E]]]; [exists p; split; [left; reflexivity|symmetry; exact E]|exists p'; split; [right; exact J|exact E]].
    + intros [p' [[J|J] E]]; [subst; left; reflexivity|right; exists p'; split; assumption].
    + split; [intro x; rewrite put_upto, I3; reflexivity|rewrite put_whole, I4; reflexivity].
Qed.
Lemma upto_below x : forall t, Forall (Rlt x) (map fst t) -> upto x t = 0.
Proof. induction t as [|[a g] t IH]; intro F; [reflexivity|]. cbn in *. inversion F; subst. destruct (Rle_dec a x); [lra|]. rewrite IH by assumption. ring. Qed.
Lemma running_upto : forall t s, increasing t -> Forall2 (fun x a => a = s + upto x t) (map fst t) (running s (map snd t)).
Proof.
  induction t as [|[a g] t IH]; intros s S; [constructor|]. unfold increasing in S. cbn in *. inversion S as [|u v S1 S2]; subst. constructor.
  - destruct (Rle_dec a a); [|lra]. rewrite (upto_below a t S2). ring.
  - pose proof (IH (s + g) S1) as Q. clear IH S. revert Q S2. generalize (running (s + g) (map snd t)) as rs. generalize (upto) as U. intros U rs Q S2. assert (G : forall ks rs, Forall (Rlt a) ks -> Forall2 (fun x b => b = s + g + U x t) ks rs -> Forall2 (fun x b => b = s + ((if Rle_dec a x then g else 0) + U x t)) ks rs).
    { induction ks as [|k ks IHk]; intros rs' A B; inversion B; subst; constructor; inversion A; subst; [destruct (Rle_dec a k); [ring|lra]|apply IHk; assumption]. }
    apply G; assumption.
Qed.
Lemma running_last : forall t s d, t <> [] -> last (running s (map snd t)) d = s + whole t.
Proof.
  induction t as [|[a g] t IH]; intros s d N; [congruence|]. destruct t as [|b t]; [cbn; ring|]. change (running s (map snd ((a, g) :: b :: t))) with ((s + g) :: running (s + g) (map snd (b :: t))).
  assert (E : forall (h : R) l, l <> [] -> last (h :: l) d = last l d) by (intros h [|] X; [congruence|reflexivity]). rewrite E by (destruct b; discriminate). rewrite IH by discriminate. destruct b as [b1 b2]. cbn [whole]. ring.
Qed.
Lemma last_map (k d : R) : forall l, l <> [] -> last (map (fun s => k * s) l) d = k * last l d.
Proof. induction l as [|a l IH]; intro N; [congruence|]. destruct l as [|b l]; [reflexivity|]. change (last (map (fun s => k * s) (a :: b :: l)) d) with (last (map (fun s => k * s) (b :: l)) d). rewrite IH by discriminate. reflexivity. Qed.
(** the area at each place where there is a panel is that of the lift of all panels up to it, the last that of all lift; the places come once each in increasing order *)
Theorem C212_area : forall q mach aoa len ps, ps <> [] -> exists us bs a, equivalent q mach aoa len ps = Ok (0 :: us ++ [len * (125 / 100)], 0 :: bs ++ [a]) /\
  StronglySorted Rlt us /\ (forall x, In x us <-> exists p, In p ps /\ shifted mach p = x) /\
  Forall2 (fun x b => b = sqrt (mach ^ 2 - 1) / (2 * q) * lift_upto q mach aoa x ps) us bs /\ a = sqrt (mach ^ 2 - 1) / (2 * q) * lift_all q aoa ps.
Proof.
  intros q mach aoa len ps N. destruct (stations_ok q mach aoa ps) as [S1 [S2 [S3 S4]]]. unfold equivalent. cbv zeta. set (t := stations q mach aoa ps) in *.
  assert (T : t <> []). { destruct ps as [|p ps]; [congruence|]. intro E. assert (J : In (shifted mach p) (map fst t)) by (apply S2; exists p; split; [left; reflexivity|reflexivity]). rewrite E in J. destruct J. }
  set (k := sqrt (mach ^ 2 - 1) / (2 * q)). exists (map fst t), (map (fun s => k * s) (running 0 (map snd t))), (k * lift_all q aoa ps).
  assert (R0 : running 0 (map snd t) <> []) by (destruct t as [|[? ?] ?]; [congruence|discriminate]).
  rewrite (last_map k 0 _ R0), (running_last t 0 0 T), S4, Rplus_0_l. split; [destruct t; [congruence|reflexivity]|]. split; [exact S1|]. split; [exact S2|]. split; [|reflexivity].
  pose proof (running_upto t 0 S1) as Q. revert Q. generalize (running 0 (map snd t)) as rs. generalize (map fst t) as us. induction us as [|u us IH]; intros rs Q; inversion Q; subst; constructor; [rewrite S3, Rplus_0_l; reflexivity|apply IH; assumption].
Qed.
Theorem C212_none : forall q mach aoa len, equivalent q mach aoa len [] = Err IndexError.
Proof. reflexivity. Qed.
(** the order of the panels does not matter *)
Lemma put_comm x f y g : forall t, put x f (put y g t) = put y g (put x f t).
Proof.
  induction t as [|[a h] t IH]; cbn.
  - destruct (Rlt_dec x y), (Rlt_dec y x), (Req_EM_T x y), (Req_EM_T y x); try lra; try reflexivity. subst. f_equal. f_equal. ring.
  - destruct (Rlt_dec y a), (Rlt_dec x a); cbn; repeat (destruct (Rlt_dec _ _) || destruct (Req_EM_T _ _); cbn); subst; try lra; try reflexivity; try (f_equal; f_equal; ring); try (rewrite IH; reflexivity).
Qed.
Theorem C212_order : forall q mach aoa len ps ps', Permutation ps ps' -> equivalent q mach aoa len ps = equivalent q mach aoa len ps'.
Proof.
  intros q mach aoa len ps ps' H. assert (E : stations q mach aoa ps = stations q mach aoa ps'); [|unfold equivalent; rewrite E; reflexivity].
  induction H; cbn [stations fold_right]; [reflexivity| |apply put_comm|congruence]. fold (stations q mach aoa l). fold (stations q mach aoa l'). rewrite IHPermutation. reflexivity.
Qed.
(** nor does the dynamic pressure *)
Lemma put_scale k x f : forall t, put x (k * f) (map (fun r => (fst r, k * snd r)) t) = map (fun r => (fst r, k * snd r)) (put x f t).
Proof. induction t as [|[a g] t IH]; cbn; [reflexivity|]. destruct (Rlt_dec x a); [reflexivity|]. destruct (Req_EM_T x a); cbn; [rewrite Rmult_plus_distr_l; reflexivity|]. rewrite IH. reflexivity. Qed.
Lemma running_scale k : forall l s, running (k * s) (map (fun x => k * x) l) = map (fun x => k * x) (running s l).
Proof. induction l as [|a l IH]; intro s; [reflexivity|]. cbn. rewrite <- Rmult_plus_distr_l, IH. reflexivity. Qed.
Theorem C212_pressure : forall q mach aoa len ps, q <> 0 -> equivalent q mach aoa len ps = equivalent 1 mach aoa len ps.
Proof.
  intros q mach aoa len ps Q. assert (E : stations q mach aoa ps = map (fun r => (fst r, q * snd r)) (stations 1 mach aoa ps)).
  { induction ps as [|p ps IH]; [reflexivity|]. cbn [stations fold_right]. fold (stations q mach aoa ps). fold (stations 1 mach aoa ps). rewrite IH, <- put_scale. f_equal. unfold lift_of. ring. }
  unfold equivalent. cbv zeta. rewrite E. set (t := stations 1 mach aoa ps). rewrite !map_map. cbn [fst snd]. replace (running 0 (map (fun x : R * R => q * snd x) t)) with (map (fun x => q * x) (running 0 (map snd t))) by (rewrite <- running_scale, Rmult_0_r, map_map; reflexivity).
  rewrite map_map. replace (map (fun x => sqrt (mach ^ 2 - 1) / (2 * q) * (q * x)) (running 0 (map snd t))) with (map (fun s => sqrt (mach ^ 2 - 1) / (2 * 1) * s) (running 0 (map snd t))) by (apply map_ext; intro x; field; exact Q).
  destruct t; reflexivity.
Qed.
(** all places together increase exactly if every panel is between nose and 1.25 lengths *)
Theorem C212_places : forall q mach aoa len ps us as_, ps <> [] -> equivalent q mach aoa len ps = Ok (us, as_) -> (StronglySorted Rlt us <-> forall p, In p ps -> 0 < shifted mach p < len * (125 / 100)).
Proof.
  intros q mach aoa len ps us as_ N H. destruct (C212_area q mach aoa len ps N) as (xs & bs & a & E & S & K & _). rewrite E in H. inversion H; subst. clear H E. split.
  - intros T p J. inversion T as [|u v T1 T2]; subst. rewrite Forall_forall in T2. assert (Jx : In (shifted mach p) xs) by (apply K; exists p; split; [exact J|reflexivity]). split; [apply T2; apply in_or_app; left; exact Jx|].
    clear - T1 Jx. induction xs as [|x xs IH]; [destruct Jx|]. cbn in T1. inversion T1 as [|u v T3 T4]; subst. destruct Jx as [Jx|Jx]; [subst; rewrite Forall_forall in T4; apply T4; apply in_or_app; right; left; reflexivity|apply IH; assumption].
  - intro B. assert (B' : forall x, In x xs -> 0 < x < len * (125 / 100)) by (intros x J; apply K in J; destruct J as [p [J <-]]; apply B; exact J). constructor.
    + clear - S B'. induction xs as [|x xs IH]; cbn; [repeat constructor|]. inversion S as [|u v S1 S2]; subst. constructor; [apply IH; [exact S1|intros y J; apply B'; right; exact J]|]. apply Forall_app. split; [exact S2|]. constructor; [apply (B' x (or_introl eq_refl))|constructor].
    + apply Forall_app. split; [apply Forall_forall; intros x J; apply B'; exact J|]. constructor; [|constructor]. destruct ps as [|p ps]; [congruence|]. pose proof (B p (or_introl eq_refl)). lra.
Qed.
(** finding: panels off the axis are put where the tangent of the Mach angle says, not its inverse: on the Mach plane only at Mach numbers of the root of 2 *)
Theorem C212_plane_refuted : forall mach p, 1 < mach -> shifted mach p = p_x p + p_z p / sqrt (mach ^ 2 - 1) /\ (shifted mach p = p_x p + p_z p * sqrt (mach ^ 2 - 1) <-> p_z p = 0 \/ mach = sqrt 2).
Proof.
  intros mach p M. assert (B0 : 0 < mach ^ 2 - 1) by nra. pose proof (sqrt_lt_R0 _ B0) as B. set (b := sqrt (mach ^ 2 - 1)) in *. assert (BB : b * b = mach ^ 2 - 1) by (apply sqrt_sqrt; lra).
  assert (I1 : 0 < 1 / mach < 1) by (split; [apply Rdiv_lt_0_compat; lra|apply Rmult_lt_reg_r with mach; [lra|]; unfold Rdiv; rewrite Rmult_1_l, Rinv_l; lra]).
  assert (T : tan (asin (1 / mach)) = / b).
  { rewrite tan_asin by lra. assert (Q : sqrt (1 - Rsqr (1 / mach)) = b / mach). { apply sqrt_lem_1; [unfold Rsqr; nra|apply Rmult_le_pos; [lra|left; apply Rinv_0_lt_compat; lra]|]. replace (b / mach * (b / mach)) with (b * b / (mach * mach)) by (field; lra). rewrite BB. unfold Rsqr. field. lra. }
    rewrite Q. field. lra. }
  split; [unfold shifted; rewrite T; reflexivity|]. unfold shifted. rewrite T. split.
  - intro E. destruct (Req_dec (p_z p) 0) as [Z|Z]; [left; exact Z|right]. assert (X : p_z p * / b = p_z p * b) by lra. apply Rmult_eq_reg_l in X; [|exact Z]. assert (b * b = 1) by (rewrite <- X at 1; field; lra).
    symmetry. apply sqrt_lem_1; lra.
  - intros [Z|Z]; [rewrite Z; ring|]. assert (b * b = 1) by (rewrite BB, Z; replace (sqrt 2 ^ 2) with (sqrt 2 * sqrt 2) by ring; rewrite sqrt_sqrt by lra; lra). assert (b = 1) by nra. rewrite H0, Rinv_1. ring.
Qed.
Example C212_case : exists us bs, equivalent 2 2 0 10 [Panel 1 1 1 5 0; Panel 3 1 1 4 0; Panel 2 1 1 5 0] = Ok (us, bs) /\ StronglySorted Rlt us.
Proof.
  destruct (C212_area 2 2 0 10 [Panel 1 1 1 5 0; Panel 3 1 1 4 0; Panel 2 1 1 5 0] ltac:(discriminate)) as (us & bs & a & E & _). do 2 eexists. split; [exact E|]. refine (proj2 (C212_places 2 2 0 10 [Panel 1 1 1 5 0; Panel 3 1 1 4 0; Panel 2 1 1 5 0] _ _ _ E) _); [discriminate|]. intros p J. cbn in J. unfold shifted. destruct J as [<-|[<-|[<-|[]]]]; cbn; lra.
Qed.
Print Assumptions C211_wing.
Print Assumptions C211_all.
Print Assumptions C211_beyond.
Print Assumptions C211_large_refuted.
Print Assumptions C212_area.
Print Assumptions C212_none.
Print Assumptions C212_order.
Print Assumptions C212_pressure.
Print Assumptions C212_places.
Print Assumptions C212_plane_refuted.
