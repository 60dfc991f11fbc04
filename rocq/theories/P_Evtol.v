(** * Weight build-ups: proofs *)
From Coq Require Import Reals List Bool Arith Lra Lia Psatz.
From Verif Require Import PyBase M_Opt P_Opt M_Drag M_Elec M_Evtol S_Evtol P_Friction.
Import ListNotations.
Local Open Scope R_scope.
Local Open Scope list_scope.

(** ** sums *)
Lemma sum_range_nil : forall i n f, (n <= i)%nat -> sum_range i n f = 0.
Proof. intros i n f H. unfold sum_range. replace (n - i)%nat with 0%nat by lia. reflexivity. Qed.
Lemma sum_range_step : forall i n f, (i < n)%nat -> sum_range i n f = f i + sum_range (S i) n f.
Proof. intros i n f H. unfold sum_range. replace (n - i)%nat with (S (n - S i)) by lia. reflexivity. Qed.
Lemma sum_range_shift : forall i n f, sum_range (S i) (S n) f = sum_range i n (fun j => f (S j)).
Proof. intros i n f. unfold sum_range. simpl. rewrite <- seq_shift, map_map. reflexivity. Qed.
Lemma sum_range_ext : forall i n f g, (forall j, (i <= j < n)%nat -> f j = g j) -> sum_range i n f = sum_range i n g.
Proof.
  intros i n f g H. unfold sum_range. f_equal. apply map_ext_in. intros j J. apply in_seq in J. apply H. lia.
Qed.
Lemma sum_range_leq : forall i n f g, (forall j, (i <= j < n)%nat -> f j <= g j) -> sum_range i n f <= sum_range i n g.
Proof.
  intros i n f g. remember (n - i)%nat as k eqn:K. revert i K. induction k as [|k IH]; intros i K H.
  - rewrite !sum_range_nil by lia. lra.
  - rewrite (sum_range_step i n f), (sum_range_step i n g) by lia. apply Rplus_le_compat; [apply H; lia | apply IH; [lia | intros j J; apply H; lia]].
Qed.
Lemma sum_range_zero : forall i n, sum_range i n (fun _ => 0) = 0.
Proof.
  intros i n. remember (n - i)%nat as k eqn:K. revert i K. induction k as [|k IH]; intros i K; [rewrite sum_range_nil by lia; reflexivity|].
  rewrite sum_range_step, IH by lia. lra.
Qed.
Lemma sum_range_pos : forall i n f, (forall j, (i <= j < n)%nat -> 0 <= f j) -> 0 <= sum_range i n f.
Proof. intros i n f H. rewrite <- (sum_range_zero i n). apply sum_range_leq. exact H. Qed.
Lemma sum_range_plus : forall i n f g, sum_range i n (fun j => f j + g j) = sum_range i n f + sum_range i n g.
Proof.
  intros i n f g. remember (n - i)%nat as k eqn:K. revert i K. induction k as [|k IH]; intros i K; [rewrite !sum_range_nil by lia; lra|].
  rewrite (sum_range_step i n (fun j => _)), (sum_range_step i n f), (sum_range_step i n g), IH by lia. lra.
Qed.
Lemma sum_range_scale : forall i n c f, sum_range i n (fun j => c * f j) = c * sum_range i n f.
Proof.
  intros i n c f. remember (n - i)%nat as k eqn:K. revert i K. induction k as [|k IH]; intros i K; [rewrite !sum_range_nil by lia; lra|].
  rewrite (sum_range_step i n (fun j => _)), (sum_range_step i n f), IH by lia. lra.
Qed.
Lemma sum_range_telescopes : forall i n f, (i <= n)%nat -> sum_range i n (fun j => f (S j) - f j) = f n - f i.
Proof.
  intros i n f. remember (n - i)%nat as k eqn:K. revert i K. induction k as [|k IH]; intros i K H.
  - rewrite sum_range_nil by lia. replace i with n by lia. lra.
  - rewrite sum_range_step, IH by lia. lra.
Qed.

(** ** lists *)
Lemma diffs_length : forall x, length (diffs x) = pred (length x).
Proof.
  induction x as [|a x IH]; [reflexivity|]. destruct x as [|b r]; [reflexivity|]. change (S (length (diffs (b :: r))) = length (b :: r)). rewrite IH. reflexivity.
Qed.
Lemma diffs_nth : forall x j, (S j < length x)%nat -> nth j (diffs x) 0 = at_ x (S j) - at_ x j.
Proof.
  unfold at_. induction x as [|a x IH]; intros j H; [simpl in H; lia|]. destruct x as [|b r]; [simpl in H; lia|].
  destruct j as [|j]; [reflexivity|]. change (nth j (diffs (b :: r)) 0 = nth (S j) (b :: r) 0 - nth j (b :: r) 0). apply IH. simpl in *. lia.
Qed.
Lemma map2_length : forall (f : R -> R -> R) a b, length (map2 f a b) = Nat.min (length a) (length b).
Proof. intros f a. induction a as [|x a IH]; intros [|y b]; simpl; [reflexivity..|]. rewrite IH. reflexivity. Qed.
Lemma map2_nth_R : forall (f : R -> R -> R) a b i, (i < length a)%nat -> (i < length b)%nat -> nth i (map2 f a b) 0 = f (nth i a 0) (nth i b 0).
Proof.
  intros f a. induction a as [|x a IH]; intros [|y b] i A B; simpl in *; try lia. destruct i as [|i]; [reflexivity|]. apply IH; lia.
Qed.
Lemma map_nth_R : forall (f : R -> R) l i, (i < length l)%nat -> nth i (map f l) 0 = f (nth i l 0).
Proof. intros f l. induction l as [|a l IH]; intros i H; simpl in *; [lia|]. destruct i; [reflexivity|]. apply IH. lia. Qed.
Lemma total_range : forall w, total w = sum_range 0 (length w) (fun j => nth j w 0).
Proof.
  induction w as [|a w IH]; [reflexivity|]. simpl length. rewrite sum_range_step by lia. rewrite sum_range_shift. simpl. rewrite <- IH. reflexivity.
Qed.
Lemma outboard_length : forall w, length (outboard w) = S (length w).
Proof. induction w as [|a w IH]; [reflexivity|]. simpl. rewrite IH. reflexivity. Qed.
Lemma outboard_nth : forall w i, nth i (outboard w) 0 = sum_range i (length w) (fun j => nth j w 0).
Proof.
  induction w as [|a w IH]; intros i.
  - destruct i as [|[|i]]; reflexivity.
  - simpl length. destruct i as [|i].
    + rewrite sum_range_step by lia. rewrite sum_range_shift. simpl. rewrite <- (IH 0%nat). destruct (outboard w); reflexivity.
    + rewrite sum_range_shift. simpl. apply IH.
Qed.
Lemma outboard_nonempty : forall w, outboard w <> [].
Proof. intros w H. assert (L := outboard_length w). rewrite H in L. discriminate L. Qed.

(** ** loads *)
Lemma summed_length : forall x L, x <> [] -> length L = length x -> length (summed x L) = length x.
Proof.
  intros x L N H. unfold summed. rewrite outboard_length, map2_length, diffs_length, H. destruct x; [congruence|]. cbn [length pred]. lia.
Qed.
Lemma summed_nth : forall x L i, length L = length x -> nth i (summed x L) 0 = sum_range i (pred (length x)) (interval_load x L).
Proof.
  intros x L i H. unfold summed. rewrite outboard_nth, map2_length, diffs_length, H.
  replace (Nat.min (length x) (pred (length x))) with (pred (length x)) by lia.
  apply sum_range_ext. intros j J. unfold interval_load, at_. rewrite map2_nth_R by (rewrite ?diffs_length; lia). rewrite diffs_nth by lia. reflexivity.
Qed.
Lemma moment_lever : forall x L i, x <> [] -> length L = length x ->
  nth i (summed x (summed x L)) 0 = sum_range i (pred (length x)) (fun j => interval_load x L j * (at_ x (S j) - at_ x i)).
Proof.
  intros x L i N H. rewrite summed_nth by (apply summed_length; assumption).
  rewrite (sum_range_ext i (pred (length x)) (interval_load x (summed x L))
             (fun j => sum_range j (pred (length x)) (interval_load x L) * (at_ x (S j) - at_ x j)))
    by (intros j J; unfold interval_load at 1, at_ at 1; rewrite summed_nth by assumption; reflexivity).
  generalize (interval_load x L). intros w. set (n := pred (length x)). clearbody n. clear N H L.
  remember (n - i)%nat as k eqn:K. revert i K. induction k as [|k IH]; intros i K.
  - rewrite !sum_range_nil by lia. reflexivity.
  - rewrite (sum_range_step i n (fun j => sum_range j n w * _)), IH by lia.
    rewrite (sum_range_step i n (fun j => w j * _)) by lia. rewrite (sum_range_step i n w) by lia.
    rewrite (sum_range_ext (S i) n (fun j => w j * (at_ x (S j) - at_ x i))
               (fun j => w j * (at_ x (S j) - at_ x (S i)) + (at_ x (S i) - at_ x i) * w j)) by (intros; ring).
    rewrite sum_range_plus, sum_range_scale. ring.
Qed.
Lemma outwards_step : forall x j, outwards x -> (S j < length x)%nat -> 0 <= at_ x (S j) - at_ x j.
Proof. intros x j H J. destruct (H j (S j) ltac:(lia)). lra. Qed.
Lemma summed_falls : forall x L i j, outwards x -> length L = length x -> (forall k, 0 <= at_ L k) -> (i <= j)%nat ->
  0 <= nth j (summed x L) 0 <= nth i (summed x L) 0.
Proof.
  intros x L i j O E P IJ. rewrite !summed_nth by assumption.
  assert (W : forall k, (k < pred (length x))%nat -> 0 <= interval_load x L k)
    by (intros k K; apply Rmult_le_pos; [apply P | apply outwards_step; [exact O | lia]]).
  split; [apply sum_range_pos; intros k K; apply W; lia|].
  remember (j - i)%nat as d eqn:D. revert i D IJ. induction d as [|d IH]; intros i D IJ; [replace i with j by lia; lra|].
  destruct (Nat.lt_ge_cases i (pred (length x))) as [A|A].
  - rewrite (sum_range_step i) by lia. specialize (IH (S i) ltac:(lia) ltac:(lia)). specialize (W i A). lra.
  - rewrite !sum_range_nil by lia. lra.
Qed.
Lemma at_out : forall l k, (length l <= k)%nat -> at_ l k = 0.
Proof. intros l k H. unfold at_. apply nth_overflow. exact H. Qed.
Lemma summed_at_pos : forall x L, outwards x -> length L = length x -> (forall k, 0 <= at_ L k) -> forall k, 0 <= at_ (summed x L) k.
Proof. intros x L O E P k. apply (summed_falls x L k k); auto. Qed.

(** the elliptic load *)
Lemma maxima_upper : forall x j, at_ x j <= maxima x.
Proof.
  unfold at_. induction x as [|a x IH]; intros j; [destruct j; simpl; lra|].
  destruct j as [|j]; simpl; [apply Rmax_l|]. eapply Rle_trans; [apply IH | apply Rmax_r].
Qed.
Lemma maxima_least : forall x b, 0 <= b -> (forall j, at_ x j <= b) -> maxima x <= b.
Proof.
  unfold at_. induction x as [|a x IH]; intros b B H; [simpl; lra|]. simpl. apply Rmax_lub; [apply (H 0%nat)|].
  apply IH; [exact B|]. intros j. apply (H (S j)).
Qed.
Lemma maxima_pos : forall x, 0 <= maxima x.
Proof. induction x; simpl; [lra|]. eapply Rle_trans; [exact IHx | apply Rmax_r]. Qed.
Lemma maxima_last : forall x, x <> [] -> outwards x -> maxima x = at_ x (pred (length x)).
Proof.
  intros x N O. assert (0 < length x)%nat by (destruct x; [congruence | simpl; lia]).
  apply Rle_antisym; [|apply maxima_upper]. apply maxima_least; [destruct (O (pred (length x)) (pred (length x)) ltac:(lia)); lra|].
  intros j. destruct (Nat.lt_ge_cases j (length x)) as [J|J]; [apply O; lia|]. rewrite at_out by lia.
  destruct (O (pred (length x)) (pred (length x)) ltac:(lia)). lra.
Qed.
Definition ellipse (x : list R) : list R := map (fun y => sqrt (1 - (y / maxima x) * (y / maxima x))) x.
Lemma elliptic_load_eq : forall x L0, elliptic_load x L0 = map (fun v => L0 / total (map2 Rmult (ellipse x) (diffs x)) * v) (ellipse x).
Proof. reflexivity. Qed.
Lemma ellipse_length : forall x, length (ellipse x) = length x.
Proof. intros. apply map_length. Qed.
Lemma ellipse_at_pos : forall x j, 0 <= at_ (ellipse x) j.
Proof.
  intros x j. destruct (Nat.lt_ge_cases j (length x)) as [J|J]; [|rewrite at_out by (rewrite ellipse_length; lia); lra].
  unfold at_, ellipse. rewrite map_nth_R by exact J. apply sqrt_pos.
Qed.
Lemma ellipse_sum : forall x, total (map2 Rmult (ellipse x) (diffs x)) = sum_range 0 (pred (length x)) (interval_load x (ellipse x)).
Proof.
  intros x. rewrite total_range, map2_length, diffs_length, ellipse_length. replace (Nat.min (length x) (pred (length x))) with (pred (length x)) by lia.
  apply sum_range_ext. intros j J. unfold interval_load, at_. rewrite map2_nth_R by (rewrite ?diffs_length, ?ellipse_length; lia). rewrite diffs_nth by lia. reflexivity.
Qed.
Lemma first_gap : forall x, outwards x -> (1 < length x)%nat -> at_ x 0 < at_ x (pred (length x)) ->
  exists j, (S j < length x)%nat /\ at_ x j < at_ x (S j).
Proof.
  intros x O N G. assert (C : forall k, (k < length x)%nat -> at_ x 0 < at_ x k -> exists j, (S j < length x)%nat /\ at_ x j < at_ x (S j)).
  { induction k as [|k IH]; intros K H; [lra|]. destruct (Rlt_dec (at_ x 0) (at_ x k)) as [D|D]; [apply IH; [lia | exact D]|].
    exists k. split; [lia | lra]. }
  apply (C (pred (length x))); [lia | exact G].
Qed.
Lemma sum_range_term : forall i n f k, (forall j, (i <= j < n)%nat -> 0 <= f j) -> (i <= k < n)%nat -> f k <= sum_range i n f.
Proof.
  intros i n f k H K. remember (k - i)%nat as d eqn:D. revert i D H K. induction d as [|d IH]; intros i D H K.
  - replace k with i by lia. rewrite sum_range_step by lia. assert (0 <= sum_range (S i) n f) by (apply sum_range_pos; intros; apply H; lia). lra.
  - rewrite sum_range_step by lia. assert (f k <= sum_range (S i) n f) by (apply IH; [lia | intros; apply H; lia | lia]). assert (0 <= f i) by (apply H; lia). lra.
Qed.
Lemma ellipse_sum_pos : forall x, outwards x -> (1 < length x)%nat -> at_ x 0 < at_ x (pred (length x)) ->
  0 < total (map2 Rmult (ellipse x) (diffs x)).
Proof.
  intros x O N G. rewrite ellipse_sum. destruct (first_gap x O N G) as (j & J & H).
  apply Rlt_le_trans with (interval_load x (ellipse x) j).
  - apply Rmult_lt_0_compat; [|lra]. unfold at_ at 1, ellipse. rewrite map_nth_R by lia. fold (at_ x j).
    assert (U := maxima_upper x (S j)). assert (P := proj1 (O j j ltac:(lia))). apply sqrt_lt_R0.
    assert (Q : 0 <= at_ x j / maxima x < 1).
    { split; [apply Rmult_le_pos; [lra | left; apply Rinv_0_lt_compat; lra]|]. apply Rmult_lt_reg_r with (maxima x); [lra|].
      unfold Rdiv. rewrite Rmult_assoc, Rinv_l by lra. lra. }
    nra.
  - apply sum_range_term; [|lia]. intros k K. apply Rmult_le_pos; [apply ellipse_at_pos | apply outwards_step; [exact O | lia]].
Qed.
Lemma elliptic_length : forall x L0, length (elliptic_load x L0) = length x.
Proof. intros. rewrite elliptic_load_eq, map_length. apply ellipse_length. Qed.
Lemma elliptic_at : forall x L0 j, at_ (elliptic_load x L0) j = L0 / total (map2 Rmult (ellipse x) (diffs x)) * at_ (ellipse x) j.
Proof.
  intros x L0 j. rewrite elliptic_load_eq. destruct (Nat.lt_ge_cases j (length x)) as [J|J].
  - unfold at_. rewrite map_nth_R by (rewrite ellipse_length; exact J). reflexivity.
  - rewrite !at_out by (rewrite ?map_length, ?ellipse_length; exact J). ring.
Qed.
Lemma root_shear : forall x L0, outwards x -> (1 < length x)%nat -> at_ x 0 < at_ x (pred (length x)) ->
  nth 0 (summed x (elliptic_load x L0)) 0 = L0.
Proof.
  intros x L0 O N G. rewrite summed_nth by apply elliptic_length. assert (P := ellipse_sum_pos x O N G).
  rewrite (sum_range_ext 0 _ _ (fun j => (L0 / total (map2 Rmult (ellipse x) (diffs x))) * interval_load x (ellipse x) j))
    by (intros j J; unfold interval_load; rewrite elliptic_at; ring).
  rewrite sum_range_scale, <- ellipse_sum. field. lra.
Qed.

(** thrust *)
Lemma thrust_count : forall motors y t a,
  fold_left (fun a m => if Rltb m y then a else a + t) motors a = a + t * INR (length (filter (fun m => negb (Rltb m y)) motors)).
Proof.
  induction motors as [|m l IH]; intros y t a; simpl; [ring|]. rewrite IH. destruct (Rltb m y); simpl negb; cbv iota; [reflexivity|].
  simpl length. rewrite S_INR. ring.
Qed.

(** ** sections *)
Fixpoint path (l : list pt) : R := match l with p :: ((q :: _) as r) => cross p q + path r | _ => 0 end.
Lemma crosses_path : forall l p, crosses p l = match l with [] => 0 | q :: _ => cross p q + path l end.
Proof.
  induction l as [|q l IH]; intros p; [reflexivity|]. simpl crosses. rewrite IH. destruct l as [|q' r]; simpl; lra.
Qed.
Lemma path_app : forall a b, a <> [] -> b <> [] -> path (a ++ b) = path a + cross (last a (0, 0)) (hd (0, 0) b) + path b.
Proof.
  induction a as [|p a IH]; intros b A B; [congruence|]. destruct a as [|q a].
  - destruct b as [|q b]; [congruence|]. simpl. lra.
  - change (cross p q + path ((q :: a) ++ b) = cross p q + path (q :: a) + cross (last (q :: a) (0, 0)) (hd (0, 0) b) + path b).
    rewrite IH by congruence. lra.
Qed.
Lemma cross_anti : forall p q, cross q p = - cross p q.
Proof. intros [a b] [c d]. unfold cross. simpl. ring. Qed.
Lemma last_rev : forall (l : list pt) d, last (rev l) d = hd d l.
Proof. intros [|a l] d; [reflexivity|]. simpl. apply last_last. Qed.
Lemma hd_rev : forall (l : list pt) d, hd d (rev l) = last l d.
Proof. intros l d. rewrite <- (last_rev (rev l) d), rev_involutive. reflexivity. Qed.
Lemma rev_nonempty : forall (l : list pt), l <> [] -> rev l <> [].
Proof. intros l H E. apply H. rewrite <- (rev_involutive l), E. reflexivity. Qed.
Lemma path_rev : forall l, path (rev l) = - path l.
Proof.
  induction l as [|p l IH]; [simpl; lra|]. destruct l as [|q l]; [simpl; lra|].
  change (path (rev (q :: l) ++ [p]) = - (cross p q + path (q :: l))).
  rewrite path_app by (try apply rev_nonempty; congruence). rewrite IH, last_rev. cbn [hd]. rewrite (cross_anti p q). simpl path at 2. lra.
Qed.
Lemma path_lower : forall h xs, path (lower h xs) = - path (upper h xs).
Proof.
  intros h xs. induction xs as [|a xs IH]; [simpl; lra|]. destruct xs as [|b r]; [simpl; lra|].
  change (cross (a, - h a) (b, - h b) + path (lower h (b :: r)) = - (cross (a, h a) (b, h b) + path (upper h (b :: r)))).
  rewrite IH. unfold cross. simpl fst. simpl snd. ring.
Qed.
Lemma last_map : forall (f : R -> pt) l d, l <> [] -> last (map f l) (f d) = f (last l d).
Proof. intros f l d. induction l as [|a l IH]; intros H; [congruence|]. destruct l as [|b r]; [reflexivity|]. apply IH. congruence. Qed.
Lemma last_default : forall {A} (l : list A) d e, l <> [] -> last l d = last l e.
Proof. intros A l d e. induction l as [|a l IH]; intros H; [congruence|]. destruct l as [|b r]; [reflexivity|]. apply IH. congruence. Qed.
Lemma upper_path : forall h a r, path (upper h (a :: r)) = two_sided_area h (a :: r) - last (a :: r) 0 * h (last (a :: r) 0) + a * h a.
Proof.
  intros h a r. revert a. induction r as [|b r IH]; intros a; [simpl; ring|].
  change (cross (a, h a) (b, h b) + path (upper h (b :: r)) = (b - a) * (h a + h b) + two_sided_area h (b :: r) - last (b :: r) 0 * h (last (b :: r) 0) + a * h a).
  rewrite IH. unfold cross. simpl fst. simpl snd. ring.
Qed.
Lemma outline_crosses : forall h x0 x1 r, h x0 = 0 ->
  crosses (last (outline h (x0 :: x1 :: r)) (0, 0)) (outline h (x0 :: x1 :: r)) = - 2 * two_sided_area h (x0 :: x1 :: r).
Proof.
  intros h x0 x1 r H. unfold outline. cbn [tl]. set (u := upper h (x1 :: r)). set (w := lower h (x0 :: x1 :: r)).
  assert (U : rev u <> []) by (apply rev_nonempty; discriminate).
  assert (W : w <> []) by discriminate.
  rewrite crosses_path. destruct (rev u ++ w) as [|q s] eqn:E; [destruct (rev u); [congruence | discriminate E]|]. rewrite <- E.
  rewrite path_app, path_rev, last_rev by assumption.
  replace q with (last u (0, 0)) by (rewrite <- hd_rev; destruct (rev u) as [|z y]; [congruence|]; simpl in E; injection E as E1 E2; exact E1).
  assert (L : last (rev u ++ w) (0, 0) = last w (0, 0)).
  { clear - W. induction (rev u) as [|a l IH]; [reflexivity|]. change (last (a :: (l ++ w)) (0, 0) = last w (0, 0)).
    destruct (l ++ w) as [|b t] eqn:F; [destruct l; [simpl in F; congruence | discriminate F]|]. exact IH. }
  rewrite L. set (z := last (x1 :: r) 0).
  assert (LU : last u (0, 0) = (z, h z)).
  { exact (eq_trans (@last_default pt (map (fun x => (x, h x)) (x1 :: r)) (0, 0) (0, h 0) ltac:(discriminate)) (last_map (fun x => (x, h x)) (x1 :: r) 0 ltac:(discriminate))). }
  assert (LW : last w (0, 0) = (z, - h z)).
  { exact (eq_trans (@last_default pt (map (fun x => (x, - h x)) (x0 :: x1 :: r)) (0, 0) (0, - h 0) ltac:(discriminate)) (last_map (fun x => (x, - h x)) (x0 :: x1 :: r) 0 ltac:(discriminate))). }
  rewrite LU, LW. unfold w. rewrite path_lower, upper_path. unfold u. rewrite upper_path.
  change (hd (0, 0) (upper h (x1 :: r))) with (x1, h x1). change (hd (0, 0) (lower h (x0 :: x1 :: r))) with (x0, - h x0).
  change (last (x0 :: x1 :: r) 0) with z. fold z. unfold cross. simpl fst. simpl snd. rewrite H.
  change (two_sided_area h (x0 :: x1 :: r)) with ((x1 - x0) * (h x0 + h x1) + two_sided_area h (x1 :: r)). rewrite H. ring.
Qed.
Lemma two_sided_pos : forall h xs, outwards xs -> (forall x, In x xs -> 0 <= h x) -> 0 <= two_sided_area h xs.
Proof.
  intros h xs O H. induction xs as [|a xs IH]; [simpl; lra|]. destruct xs as [|b r]; [simpl; lra|].
  change (0 <= (b - a) * (h a + h b) + two_sided_area h (b :: r)).
  assert (0 <= b - a) by exact (outwards_step (a :: b :: r) 0 O ltac:(simpl; lia)).
  assert (0 <= h a) by (apply H; left; reflexivity). assert (0 <= h b) by (apply H; right; left; reflexivity).
  assert (0 <= (b - a) * (h a + h b)) by (apply Rmult_le_pos; lra).
  assert (0 <= two_sided_area h (b :: r)).
  { apply IH; [|intros x X; apply H; right; exact X]. intros i j IJ. exact (O (S i) (S j) ltac:(simpl in *; lia)). }
  lra.
Qed.
(** moving and scaling *)
Lemma shift_last : forall c l, l <> [] -> last (shift c l) (0, 0) = (fst (last l (0, 0)) - c, snd (last l (0, 0))).
Proof.
  intros c l H. induction l as [|a l IH]; [congruence|]. destruct l as [|b r]; [reflexivity|]. apply IH. congruence.
Qed.
Lemma shift_crosses : forall c l p, crosses (fst p - c, snd p) (shift c l) = crosses p l - c * (snd p - snd (last l p)).
Proof.
  intros c l. induction l as [|q l IH]; intros p; [simpl; ring|].
  change (crosses (fst p - c, snd p) (shift c (q :: l))) with (cross (fst p - c, snd p) (fst q - c, snd q) + crosses (fst q - c, snd q) (shift c l)).
  rewrite IH. change (crosses p (q :: l)) with (cross p q + crosses q l).
  replace (last (q :: l) p) with (last l q).
  - unfold cross. simpl fst. simpl snd. ring.
  - destruct l as [|z l]; [reflexivity|]. apply (last_default (z :: l) q p). congruence.
Qed.
Lemma shoelace_shift : forall c l, shoelace (shift c l) = shoelace l.
Proof.
  intros c l. unfold shoelace. destruct l as [|a l]; [reflexivity|]. rewrite shift_last by congruence. rewrite shift_crosses.
  rewrite (last_default (a :: l) (last (a :: l) (0, 0)) (0, 0)) by congruence. do 2 f_equal. ring.
Qed.
Lemma scale_last : forall c l, l <> [] -> last (scale c l) (0, 0) = (fst (last l (0, 0)) * c, snd (last l (0, 0)) * c).
Proof.
  intros c l H. induction l as [|a l IH]; [congruence|]. destruct l as [|b r]; [reflexivity|]. apply IH. congruence.
Qed.
Lemma scale_crosses : forall c l p, crosses (fst p * c, snd p * c) (scale c l) = c * c * crosses p l.
Proof.
  intros c l. induction l as [|q l IH]; intros p; [simpl; ring|].
  change (crosses (fst p * c, snd p * c) (scale c (q :: l))) with (cross (fst p * c, snd p * c) (fst q * c, snd q * c) + crosses (fst q * c, snd q * c) (scale c l)).
  rewrite IH. simpl crosses. unfold cross. simpl fst. simpl snd. ring.
Qed.
Lemma shoelace_scale : forall c l, shoelace (scale c l) = c * c * shoelace l.
Proof.
  intros c l. unfold shoelace. destruct l as [|a l]; [simpl; rewrite Rabs_R0; ring|]. rewrite scale_last by congruence. rewrite scale_crosses.
  rewrite Rabs_mult, (Rabs_right (c * c)) by nra. ring.
Qed.
Lemma dist_scale : forall c p q, 0 <= c -> dist (fst p * c, snd p * c) (fst q * c, snd q * c) = c * dist p q.
Proof.
  intros c p q C. unfold dist. simpl fst. simpl snd.
  replace ((fst q * c - fst p * c) * (fst q * c - fst p * c) + (snd q * c - snd p * c) * (snd q * c - snd p * c))
    with ((c * c) * ((fst q - fst p) * (fst q - fst p) + (snd q - snd p) * (snd q - snd p))) by ring.
  rewrite sqrt_mult by (apply Rle_0_sqr || (apply Rplus_le_le_0_compat; apply Rle_0_sqr)). fold (Rsqr c). unfold Rsqr at 1. rewrite sqrt_square by exact C. reflexivity.
Qed.
Lemma polyline_scale : forall c l, 0 <= c -> polyline (scale c l) = c * polyline l.
Proof.
  intros c l C. induction l as [|p l IH]; [simpl; ring|]. destruct l as [|q l]; [simpl; ring|].
  change (dist (fst p * c, snd p * c) (fst q * c, snd q * c) + polyline (scale c (q :: l)) = c * (dist p q + polyline (q :: l))).
  rewrite IH, dist_scale by exact C. ring.
Qed.
Lemma polyline_shift : forall c l, polyline (shift c l) = polyline l.
Proof.
  intros c l. induction l as [|p l IH]; [reflexivity|]. destruct l as [|q l]; [reflexivity|].
  change (dist (fst p - c, snd p) (fst q - c, snd q) + polyline (shift c (q :: l)) = dist p q + polyline (q :: l)).
  rewrite IH. f_equal. unfold dist. simpl fst. simpl snd. f_equal. ring.
Qed.
(** the section *)
Lemma naca_pos : forall toc x, 0 <= toc -> 0 <= x <= 1 -> 0 <= naca toc x.
Proof.
  intros toc x T [A B]. unfold naca. apply Rmult_le_pos; [lra|].
  assert (S0 := sqrt_pos x). assert (SS := sqrt_sqrt x A). assert (S1 : sqrt x <= 1) by (rewrite <- sqrt_1; apply sqrt_le_1; lra).
  revert S0 SS S1. generalize (sqrt x). intros s S0 SS S1. subst x.
  assert (G : 0 <= 2969 / 10000 - 1260 / 10000 * s - 3516 / 10000 * (s * s * s) + 2843 / 10000 * (s * s * s * s * s) - 1015 / 10000 * (s * s * s * s * s * s * s)).
  { assert (P3 : 0 <= s * s * s <= 1) by nra.
    assert (P5 : 0 <= s * s * s * s * s <= 1) by nra.
    assert (P7 : s * s * s * s * s * s * s <= s * s * s * s * s) by nra.
    assert (Q : 5 * (1 - s * s * s) - 3 * (1 - s * s * s * s * s) >= 0).
    { replace (5 * (1 - s * s * s) - 3 * (1 - s * s * s * s * s)) with ((1 - s) * (1 - s) * (2 + 4 * s + 6 * (s * s) + 3 * (s * s * s))) by ring. 
      apply Rle_ge. apply Rmult_le_pos; nra. }
    nra. }
  replace (2969 / 10000 * s - 1260 / 10000 * (s * s) - 3516 / 10000 * (s * s * (s * s)) + 2843 / 10000 * (s * s * (s * s) * (s * s)) - 1015 / 10000 * (s * s * (s * s) * (s * s) * (s * s)))
    with (s * (2969 / 10000 - 1260 / 10000 * s - 3516 / 10000 * (s * s * s) + 2843 / 10000 * (s * s * s * s * s) - 1015 / 10000 * (s * s * s * s * s * s * s))) by ring.
  apply Rmult_le_pos; assumption.
Qed.
Lemma naca_0 : forall toc, naca toc 0 = 0.
Proof. intros. unfold naca. rewrite sqrt_0. ring. Qed.

(** ** the wing's mass *)
Lemma scaled_leq : forall a b c, 0 < c -> a <= b -> a / c <= b / c.
Proof. intros a b c C H. unfold Rdiv. apply Rmult_le_compat_r; [left; apply Rinv_0_lt_compat; exact C | exact H]. Qed.
Lemma station_grows : forall y k dx mx my mz vz mx' my' mz' vz', sound_materials y k -> 0 <= dx -> mx <= mx' -> my <= my' -> mz <= mz' -> vz <= vz' ->
  station_mass y k dx mx my mz vz <= station_mass y k dx mx' my' mz' vz'.
Proof.
  intros y k dx mx my mz vz mx' my' mz' vz' [a1 a2 a3 a4 a5 a6 b1 b2 b3 b4 b5 b6 b7 b8 b9] D X Y Z V. unfold station_mass.
  assert (A : torsion_skin y k dx my * k_torsion_length k * y_tors_den y <= torsion_skin y k dx my' * k_torsion_length k * y_tors_den y).
  { apply Rmult_le_compat_r; [exact a2|]. apply Rmult_le_compat_r; [exact b2|]. unfold torsion_skin. apply Rle_max_compat_r.
    apply scaled_leq; [|apply Rmult_le_compat_r; assumption]. apply Rmult_lt_0_compat; [lra | exact b1]. }
  assert (B : mx * k_zmax k / (k_flap_inertia k * y_bend_uts y) * k_flap_length k * y_bend_den y <= mx' * k_zmax k / (k_flap_inertia k * y_bend_uts y) * k_flap_length k * y_bend_den y).
  { apply Rmult_le_compat_r; [exact a4|]. apply Rmult_le_compat_r; [exact b4|]. apply scaled_leq; [apply Rmult_lt_0_compat; assumption | apply Rmult_le_compat_r; assumption]. }
  assert (C : mz * k_xmax k / (k_drag_inertia k * y_bend_uts y) * k_drag_length k * y_bend_den y <= mz' * k_xmax k / (k_drag_inertia k * y_bend_uts y) * k_drag_length k * y_bend_den y).
  { apply Rmult_le_compat_r; [exact a4|]. apply Rmult_le_compat_r; [exact b6|]. apply scaled_leq; [apply Rmult_lt_0_compat; assumption | apply Rmult_le_compat_r; assumption]. }
  assert (E : Rmax (3 / 2 * vz / (y_shear_uss y * k_height k)) (y_shear_mgt y) * k_height k * y_shear_den y
              <= Rmax (3 / 2 * vz' / (y_shear_uss y * k_height k)) (y_shear_mgt y) * k_height k * y_shear_den y).
  { apply Rmult_le_compat_r; [exact a6|]. apply Rmult_le_compat_r; [lra|]. apply Rle_max_compat_r. apply scaled_leq; [apply Rmult_lt_0_compat; assumption | lra]. }
  lra.
Qed.
Definition below (a b : list R) : Prop := length a = length b /\ forall i, at_ a i <= at_ b i.
Lemma below_cons : forall a b x y, below (x :: a) (y :: b) -> x <= y /\ below a b.
Proof. intros a b x y [L H]. split; [apply (H 0%nat)|]. split; [simpl in L; lia|]. intros i. apply (H (S i)). Qed.
Lemma below_scale : forall a b c, 0 <= c -> below a b -> below (map (fun v => v * c) a) (map (fun v => v * c) b).
Proof.
  intros a b c C [L H]. split; [rewrite !map_length; exact L|]. intros i. destruct (Nat.lt_ge_cases i (length a)) as [I|I].
  - unfold at_. rewrite !map_nth_R by lia. apply Rmult_le_compat_r; [exact C | apply H].
  - rewrite !at_out by (rewrite map_length; lia). lra.
Qed.
Lemma below_summed : forall x a b, outwards x -> length a = length x -> below a b -> below (summed x a) (summed x b).
Proof.
  intros x a b O E [L H]. split; [unfold summed; rewrite !outboard_length, !map2_length, L; reflexivity|].
  intros i. unfold at_. rewrite !summed_nth by lia. apply sum_range_leq. intros j J. unfold interval_load.
  apply Rmult_le_compat_r; [apply outwards_step; [exact O | lia] | apply H].
Qed.
Lemma below_maxima : forall a b, below a b -> maxima a <= maxima b.
Proof.
  intros a b [L H]. apply maxima_least; [apply maxima_pos|]. intros j. eapply Rle_trans; [apply H | apply maxima_upper].
Qed.
Lemma stations_below : forall y k dx mz mz' Mx My Vz Mx' My' Vz', sound_materials y k -> 0 <= dx -> mz <= mz' -> below Mx Mx' -> below My My' -> below Vz Vz' ->
  below (station_masses y k dx mz Mx My Vz) (station_masses y k dx mz' Mx' My' Vz').
Proof.
  intros y k dx mz mz' Mx. induction Mx as [|a Mx IH]; intros My Vz Mx' My' Vz' S D Z A B C.
  - destruct Mx' as [|a' Mx']; [|destruct A as [A _]; discriminate A]. simpl. split; [reflexivity|]. intros i. lra.
  - destruct Mx' as [|a' Mx']; [destruct A as [A _]; discriminate A|].
    destruct My as [|b My]; destruct My' as [|b' My']; [split; [reflexivity | intros; simpl; lra] | destruct B as [B _]; discriminate B | destruct B as [B _]; discriminate B|].
    destruct Vz as [|c Vz]; destruct Vz' as [|c' Vz']; [split; [reflexivity | intros; simpl; lra] | destruct C as [C _]; discriminate C | destruct C as [C _]; discriminate C|].
    apply below_cons in A. apply below_cons in B. apply below_cons in C. destruct A as [A1 A2], B as [B1 B2], C as [C1 C2].
    destruct (IH My Vz Mx' My' Vz' S D Z A2 B2 C2) as [L H]. split; [simpl; lia|]. intros [|i]; [|apply H].
    unfold at_. simpl. apply station_grows; assumption.
Qed.
Lemma map2_total_below : forall m m' x, outwards x -> below m m' -> total (map2 Rmult m (diffs x)) <= total (map2 Rmult m' (diffs x)).
Proof.
  intros m m' x O [L H]. rewrite !total_range, !map2_length, L. apply sum_range_leq. intros j J. rewrite diffs_length in J.
  rewrite !map2_nth_R by (rewrite ?diffs_length; lia). rewrite diffs_nth by lia. apply Rmult_le_compat_r; [apply outwards_step; [exact O | lia] | apply H].
Qed.
Lemma first_spacing_pos : forall x, outwards x -> 0 <= match diffs x with d :: _ => d | [] => 0 end.
Proof.
  intros x O. destruct x as [|a [|b r]]; simpl; [lra..|]. exact (outwards_step (a :: b :: r) 0 O ltac:(simpl; lia)).
Qed.
Lemma elliptic_below : forall x L0 L1, outwards x -> L0 <= L1 -> below (elliptic_load x L0) (elliptic_load x L1).
Proof.
  intros x L0 L1 O H. split; [rewrite !elliptic_length; reflexivity|]. intros i. rewrite !elliptic_at. apply Rmult_le_compat_r; [apply ellipse_at_pos|].
  assert (P : 0 <= total (map2 Rmult (ellipse x) (diffs x))).
  { rewrite ellipse_sum. apply sum_range_pos. intros k K. apply Rmult_le_pos; [apply ellipse_at_pos | apply outwards_step; [exact O | lia]]. }
  destruct P as [P|P]; [apply scaled_leq; assumption|]. rewrite <- P. unfold Rdiv. rewrite Rinv_0. lra.
Qed.
Lemma thrust_below : forall x motors t t', t <= t' -> below (thrust_shear x motors t) (thrust_shear x motors t').
Proof.
  intros x motors t t' H. unfold thrust_shear. split; [rewrite !map_length; reflexivity|]. intros i. unfold at_.
  destruct (Nat.lt_ge_cases i (length x)) as [I|I]; [|rewrite !nth_overflow by (rewrite map_length; lia); lra].
  rewrite !map_nth_R by exact I. rewrite !thrust_count. assert (P := pos_INR (length (filter (fun m => negb (Rltb m (nth i x 0))) motors))). nra.
Qed.
Lemma wing_mass_grows : forall y k x motors L0 L1 chord cmocl lod t t' grace, sound_materials y k -> outwards x -> x <> [] ->
  0 <= chord -> 0 <= cmocl -> 0 < lod -> 0 <= grace -> L0 <= L1 -> t <= t' ->
  wing_mass y k x motors L0 chord cmocl lod t grace <= wing_mass y k x motors L1 chord cmocl lod t' grace.
Proof.
  intros y k x motors L0 L1 chord cmocl lod t t' grace S O N C M D G H T. unfold wing_mass. apply Rmult_le_compat_r; [exact G|].
  apply Rmult_le_compat_l; [lra|]. apply Rplus_le_compat_r. apply map2_total_below; [exact O|].
  assert (E := elliptic_below x L0 L1 O H).
  assert (E1 : below (map (fun l => l * chord * cmocl) (elliptic_load x L0)) (map (fun l => l * chord * cmocl) (elliptic_load x L1))).
  { rewrite (map_ext (fun l => l * chord * cmocl) (fun l => l * (chord * cmocl))) by (intros; ring).
    rewrite (map_ext (fun l => l * chord * cmocl) (fun l => l * (chord * cmocl))) by (intros; ring). apply below_scale; [apply Rmult_le_pos; assumption | exact E]. }
  assert (E2 : below (map (fun l => l / lod) (elliptic_load x L0)) (map (fun l => l / lod) (elliptic_load x L1))).
  { unfold Rdiv. apply below_scale; [left; apply Rinv_0_lt_compat; exact D | exact E]. }
  assert (LE : length (elliptic_load x L0) = length x) by apply elliptic_length.
  apply stations_below.
  - exact S.
  - apply first_spacing_pos. exact O.
  - assert (Z : forall a b c d, a <= b -> c <= d -> Rmax a c <= Rmax b d)
      by (intros a b c d P Q; apply Rmax_lub; [eapply Rle_trans; [exact P | apply Rmax_l] | eapply Rle_trans; [exact Q | apply Rmax_r]]).
    apply Z; apply below_maxima; apply below_summed; try exact O.
    + rewrite summed_length; rewrite ?map_length; auto.
    + apply below_summed; [exact O | rewrite map_length; exact LE | exact E2].
    + unfold thrust_shear. apply map_length.
    + apply thrust_below. exact T.
  - apply below_summed; [exact O | rewrite summed_length; auto|]. apply below_summed; auto.
  - apply below_summed; [exact O | rewrite map_length; exact LE | exact E1].
  - apply below_summed; auto.
Qed.
(** without load *)
Lemma summed_zero : forall x L, (forall i, at_ L i = 0) -> forall i, at_ (summed x L) i = 0.
Proof.
  intros x L H i. unfold at_, summed. rewrite outboard_nth. rewrite (sum_range_ext _ _ _ (fun _ => 0)); [apply sum_range_zero|].
  intros j J. rewrite map2_length in J. rewrite map2_nth_R by lia. fold (at_ L j). rewrite H. ring.
Qed.
Lemma maxima_zero : forall L, (forall i, at_ L i = 0) -> maxima L = 0.
Proof. intros L H. apply Rle_antisym; [|apply maxima_pos]. apply maxima_least; [lra|]. intros j. rewrite H. lra. Qed.
Lemma at_map_zero : forall (f : R -> R) L, (forall i, at_ L i = 0) -> f 0 = 0 -> forall i, at_ (map f L) i = 0.
Proof.
  intros f L H F i. destruct (Nat.lt_ge_cases i (length L)) as [I|I]; [|apply at_out; rewrite map_length; exact I].
  unfold at_. rewrite map_nth_R by exact I. fold (at_ L i). rewrite H. exact F.
Qed.
Lemma station_masses_const : forall y k dx Mx My Vz, length My = length Mx -> length Vz = length Mx ->
  (forall i, at_ Mx i = 0) -> (forall i, at_ My i = 0) -> (forall i, at_ Vz i = 0) ->
  station_masses y k dx 0 Mx My Vz = repeat (station_mass y k dx 0 0 0 0) (length Mx).
Proof.
  intros y k dx Mx. induction Mx as [|a Mx IH]; intros My Vz A B H1 H2 H3; [reflexivity|].
  destruct My as [|b My]; [discriminate A|]. destruct Vz as [|c Vz]; [discriminate B|]. simpl.
  assert (a = 0) by (exact (H1 0%nat)). assert (b = 0) by (exact (H2 0%nat)). assert (c = 0) by (exact (H3 0%nat)). subst. f_equal.
  apply IH; [simpl in *; lia | simpl in *; lia | intros i; exact (H1 (S i)) | intros i; exact (H2 (S i)) | intros i; exact (H3 (S i))].
Qed.
Lemma total_const : forall c x, x <> [] -> total (map2 Rmult (repeat c (length x)) (diffs x)) = c * (at_ x (pred (length x)) - at_ x 0).
Proof.
  intros c x N. rewrite total_range, map2_length, diffs_length, repeat_length. replace (Nat.min (length x) (pred (length x))) with (pred (length x)) by lia.
  rewrite (sum_range_ext 0 _ _ (fun j => c * (at_ x (S j) - at_ x j))).
  - rewrite sum_range_scale. rewrite (sum_range_telescopes 0 (pred (length x)) (at_ x)) by lia. reflexivity.
  - intros j J. rewrite map2_nth_R by (rewrite ?diffs_length, ?repeat_length; lia). rewrite diffs_nth by lia. f_equal.
    assert (I : In (nth j (repeat c (length x)) 0) (repeat c (length x))) by (apply nth_In; rewrite repeat_length; lia). apply repeat_spec in I. exact I.
Qed.
Lemma unloaded : forall y k x motors chord cmocl lod grace, x <> [] ->
  wing_mass y k x motors 0 chord cmocl lod 0 grace =
  2 * (station_mass y k 0 0 0 0 0 * (at_ x (pred (length x)) - at_ x 0) + INR (length motors + 2) * ((k_area k + k_skin k * y_rib_wid y) * y_rib_mgt y * y_rib_den y)) * grace.
Proof.
  intros y k x motors chord cmocl lod grace N. unfold wing_mass.
  assert (LE : length (elliptic_load x 0) = length x) by apply elliptic_length.
  assert (E0 : forall i, at_ (elliptic_load x 0) i = 0) by (intros i; rewrite elliptic_at; unfold Rdiv; ring).
  assert (T0 : forall i, at_ (thrust_shear x motors 0) i = 0).
  { intros i. unfold thrust_shear. destruct (Nat.lt_ge_cases i (length x)) as [I|I]; [|apply at_out; rewrite map_length; exact I].
    unfold at_. rewrite map_nth_R by exact I. rewrite thrust_count. ring. }
  rewrite (maxima_zero (summed x (summed x _))) by (apply summed_zero; apply summed_zero; apply at_map_zero; [exact E0 | unfold Rdiv; ring]).
  rewrite (maxima_zero (summed x (thrust_shear x motors 0))) by (apply summed_zero; exact T0).
  rewrite Rmax_left by lra.
  assert (L1 : length (summed x (summed x (elliptic_load x 0))) = length x) by (rewrite summed_length; [reflexivity | exact N | apply summed_length; assumption]).
  rewrite station_masses_const.
  - rewrite L1, total_const by exact N. do 3 f_equal. unfold station_mass, torsion_skin. f_equal. rewrite !Rmult_0_l. reflexivity.
  - rewrite L1, summed_length; [reflexivity | exact N | rewrite map_length; exact LE].
  - rewrite L1, summed_length; auto.
  - apply summed_zero. apply summed_zero. exact E0.
  - apply summed_zero. apply at_map_zero; [exact E0 | ring].
  - apply summed_zero. exact E0.
Qed.
