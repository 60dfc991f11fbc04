(** * Vortex lattice: transonic rows, boundary conditions *)
From Coq Require Import Reals List Bool Arith Lra Psatz Lia.
From Verif Require Import PyBase M_Opt P_Opt M_Rot P_Rot S_Wing P_Deriv M_Evtol S_Elec M_Vlm S_Rot S_Vlm P_Rotor P_Vlm P_Vlm2.
Import ListNotations.
Local Open Scope R_scope.

(** ** falling outer ends *)
Lemma flat_angle i : vy (b_a i) < vy (b_b i) -> vz (b_a i) = vz (b_b i) -> dihedral_of i = 0.
Proof.
  intros Hy Hz. unfold dihedral_of. rewrite Hz. replace ((vy (b_a i) - vy (b_b i)) * (vy (b_a i) - vy (b_b i)) + (vz (b_b i) - vz (b_b i)) * (vz (b_b i) - vz (b_b i))) with ((vy (b_b i) - vy (b_a i)) * (vy (b_b i) - vy (b_a i))) by ring.
  rewrite sqrt_square by lra. replace ((vy (b_b i) - vy (b_a i)) / (vy (b_b i) - vy (b_a i))) with 1 by (field; lra). rewrite acos_1. pose proof PI_RGT_0.
  rewrite (proj2 (Rltb_false (PI / 2) 0)) by lra. reflexivity.
Qed.
Lemma falling_angle j o : vy (b_a j) < vy (b_b j) -> vz (b_b j) < vz (b_a j) ->
  cos (dihedral_of j) = k_cos (local_axes j o) /\ sin (dihedral_of j) = - k_sin (local_axes j o).
Proof.
  intros Hy Hz. assert (Hw : 0 < width (b_a j) (b_b j)) by (rewrite width_hyp; apply hyp_right; lra).
  destruct (axes_angles j o Hw) as [EC ES]. rewrite EC, ES. clear EC ES. unfold dihedral_of. cbn zeta.
  assert (EW : sqrt ((vy (b_a j) - vy (b_b j)) * (vy (b_a j) - vy (b_b j)) + (vz (b_a j) - vz (b_b j)) * (vz (b_a j) - vz (b_b j))) = width (b_a j) (b_b j)).
  { unfold width, norm, flattened, minus, vdot; cbn [vx vy vz]. f_equal. ring. }
  rewrite EW. clear EW. pose proof (width_sq (b_a j) (b_b j)) as W2. unfold ordered. rewrite (proj2 (Rltb_false (vy (b_b j)) (vy (b_a j)))) by lra.
  set (w := width (b_a j) (b_b j)) in *. set (dy := vy (b_b j) - vy (b_a j)) in *. set (dz := vz (b_b j) - vz (b_a j)) in *.
  assert (R : -1 <= dy / w <= 1) by (split; [apply frac_ge; nra|apply frac_le; nra]).
  assert (SQ : sqrt (1 - Rsqr (dy / w)) = - dz / w).
  { rewrite <- (sqrt_square (- dz / w)) by (apply Rmult_le_pos; [unfold dz; lra|left; apply Rinv_0_lt_compat; lra]). f_equal. unfold Rsqr. field_simplify_eq; [|lra]. nra. }
  pose proof (cos_acos (dy / w) ltac:(lra)) as CA. pose proof (sin_acos (dy / w) ltac:(lra)) as SA. rewrite SQ in SA. pose proof (acos_bound (dy / w)) as AB. pose proof PI_RGT_0.
  rewrite (proj2 (Rltb_false (PI / 2) (acos (dy / w)))); [split; [exact CA|rewrite SA; field; lra]|].
  apply Rnot_lt_le. intro L. assert (K : cos (acos (dy / w)) < 0) by (apply cos_lt_0; lra). rewrite CA in K.
  assert (0 < dy / w) by (apply Rdiv_lt_0_compat; unfold dy; lra). lra.
Qed.
Lemma influence_normal_falling mach i j o : vy (b_a i) < vy (b_b i) -> vz (b_a i) = vz (b_b i) -> vy (b_a j) < vy (b_b j) -> vz (b_b j) < vz (b_a j) ->
  let dy := vy (b_b j) - vy (b_a j) in let dz := vz (b_b j) - vz (b_a j) in
  influence_normal mach i j o = option_map (fun v => vz v - 2 * dz * (vy v * dy + vz v * dz) / (dy * dy + dz * dz)) (influence mach j o).
Proof.
  intros Iy Iz Jy Jz. cbn zeta. unfold influence_normal, influence. cbn zeta.
  assert (Hw : 0 < width (b_a j) (b_b j)) by (rewrite width_hyp; apply hyp_right; lra).
  set (q := if Rltb _ _ then subsonic _ _ else supersonic _ _); destruct q as [v|]; [|reflexivity]. cbn [option_map vx vy vz]. f_equal.
  rewrite (flat_angle i Iy Iz). destruct (falling_angle j o Jy Jz) as [C S]. rewrite cos_minus, sin_minus, cos_0, sin_0, C, S.
  destruct (axes_angles j o Hw) as [EC ES]. unfold ordered in EC, ES. rewrite (proj2 (Rltb_false (vy (b_b j)) (vy (b_a j)))) in EC, ES by lra.
  pose proof (width_sq (b_a j) (b_b j)) as W2. set (w := width (b_a j) (b_b j)) in *. set (dy := vy (b_b j) - vy (b_a j)) in *. set (dz := vz (b_b j) - vz (b_a j)) in *.
  rewrite <- W2. assert (Ey : dy = w * k_cos (local_axes j o)) by (rewrite EC; field; lra). assert (Ez : dz = w * k_sin (local_axes j o)) by (rewrite ES; field; lra).
  rewrite Ey, Ez. set (c := k_cos _) in *. set (s := k_sin _) in *.
  assert (SC : s * s = 1 - c * c). { assert (w * w * (s * s) = w * w * (1 - c * c)) by (rewrite Ey, Ez in W2; nra). apply (Rmult_eq_reg_l (w * w)); nra. }
  field [SC]. lra.
Qed.
Definition wj : bound := {| b_a := V3 0 0 0; b_b := V3 0 1 (-1) |}.
Lemma falling_witness : exists v, influence 0 wj (V3 0 2 0) = Some v /\ vy v - vz v <> 0.
Proof.
  assert (W2 : width (V3 0 0 0) (V3 0 1 (-1)) * width (V3 0 0 0) (V3 0 1 (-1)) = 2) by (rewrite width_sq; cbn [vx vy vz]; ring).
  assert (W0 : 0 < width (V3 0 0 0) (V3 0 1 (-1))) by (rewrite width_hyp; apply hyp_right; cbn [vy]; lra).
  destruct (axes_of (V3 0 0 0) (V3 0 1 (-1)) (V3 0 2 0)) as [SC [Ew [Hs [Ed [Era Erb]]]]]; [cbn [vy]; lra|exact W0|].
  fold wj in *. unfold influence. set (k := local_axes wj (V3 0 2 0)) in *. set (w := width _ _) in *.
  replace (0 * 0 - 1) with (- (1 * 1)) by ring. rewrite (proj2 (Rltb_true (- (1 * 1)) 0)) by lra.
  assert (D1 : 0 = 2 * k_s k * k_t k) by (transitivity (vx (minus (V3 0 1 (-1)) (V3 0 0 0))); [cbn; ring|rewrite Ed; reflexivity]).
  assert (D2 : 1 = 2 * k_s k * k_cos k) by (transitivity (vy (minus (V3 0 1 (-1)) (V3 0 0 0))); [cbn; ring|rewrite Ed; reflexivity]).
  assert (D3 : -1 = 2 * k_s k * k_sin k) by (transitivity (vz (minus (V3 0 1 (-1)) (V3 0 0 0))); [cbn; ring|rewrite Ed; reflexivity]).
  assert (A1 : 0 = k_X1 k) by (transitivity (vx (minus (V3 0 2 0) (V3 0 0 0))); [cbn; ring|rewrite Era; reflexivity]).
  assert (A2 : 2 = k_Y1 k * k_cos k - k_z k * k_sin k) by (transitivity (vy (minus (V3 0 2 0) (V3 0 0 0))); [cbn; ring|rewrite Era; reflexivity]).
  assert (A3 : 0 = k_Y1 k * k_sin k + k_z k * k_cos k) by (transitivity (vz (minus (V3 0 2 0) (V3 0 0 0))); [cbn; ring|rewrite Era; reflexivity]).
  assert (B1 : 0 = k_X2 k) by (transitivity (vx (minus (V3 0 2 0) (V3 0 1 (-1)))); [cbn; ring|rewrite Erb; reflexivity]).
  assert (B2 : 1 = k_Y2 k * k_cos k - k_z k * k_sin k) by (transitivity (vy (minus (V3 0 2 0) (V3 0 1 (-1)))); [cbn; ring|rewrite Erb; reflexivity]).
  assert (B3 : 1 = k_Y2 k * k_sin k + k_z k * k_cos k) by (transitivity (vz (minus (V3 0 2 0) (V3 0 1 (-1)))); [cbn; ring|rewrite Erb; reflexivity]).
  assert (Hh : 4 * (k_s k * k_s k) = 2) by (rewrite Ew in W2; nra).
  set (h := k_s k) in *. set (c := k_cos k) in *. set (s := k_sin k) in *. set (z := k_z k) in *.
  assert (Sc : s = - c) by nra. assert (Ht : k_t k = 0) by nra. assert (c0 : c <> 0) by (intro Z; rewrite Z in D2; lra).
  assert (Y1 : k_Y1 k = z) by (rewrite Sc in A3; apply (Rmult_eq_reg_l c); [nra|exact c0]).
  assert (c2 : c * c = / 2) by (rewrite Sc in SC; nra).
  assert (Z1 : z * c = 1) by (rewrite Y1, Sc in A2; nra). assert (z2 : z * z = 2) by nra.
  assert (Y2 : k_Y2 k = 0) by (rewrite Sc in B2, B3; nra).
  assert (R1 : k_RTV1 k = 4) by (unfold k_RTV1; rewrite Y1; fold z; lra). assert (R2 : k_RTV2 k = 2) by (unfold k_RTV2; rewrite Y2; fold z; lra).
  assert (Tq : k_tolsq k <= 1) by (unfold k_tolsq, k_tol; fold h; nra).
  assert (Zq : k_zsq k = 2) by (unfold k_zsq; fold z; exact z2).
  assert (Q : 0 <= k_XTY k * k_XTY k) by nra.
  destruct (subsonic_clear 1 k ltac:(lra) Hs ltac:(lra) ltac:(lra) ltac:(rewrite Zq, Ht; lra) ltac:(right; lra)) as [P1 [P2 [V1 [V2 E]]]].
  rewrite E. eexists. split; [reflexivity|]. cbn [vx vy vz]. fold c s z. rewrite R1, R2, Ht, <- A1, <- B1 in *.
  set (r1 := sqrt (0 * 0 + 1 * 1 * 4)) in *. set (r2 := sqrt (0 * 0 + 1 * 1 * 2)) in *. rewrite Sc, Y1, Y2. pose proof PI_RGT_0 as HP.
  set (QB := (_ / r1 - _ / r2) / _). clearbody QB.
  match goal with |- ?x <> 0 => assert (EX : x = - (z * c) / (8 * PI)) end.
  { field. repeat split; lra. }
  rewrite EX, Z1. assert (0 < / (8 * PI)) by (apply Rinv_0_lt_compat; lra). unfold Rdiv. lra.
Qed.

(** ** strips side by side *)
Lemma map2_app {A B C} (f : A -> B -> C) a1 a2 b1 b2 : length a1 = length b1 -> map2 f (a1 ++ a2) (b1 ++ b2) = map2 f a1 b1 ++ map2 f a2 b2.
Proof. revert b1; induction a1; intros [|b b1] H; cbn in *; try discriminate; [reflexivity|]. f_equal. apply IHa1. lia. Qed.
Lemma take_app {A} m1 m2 (x1 x2 : list A) : length m1 = length x1 -> take_where (m1 ++ m2) (x1 ++ x2) = take_where m1 x1 ++ take_where m2 x2.
Proof. revert x1; induction m1 as [|b m IH]; intros [|a x] H; cbn in *; try discriminate; [reflexivity|]. destruct b; cbn; [f_equal|]; apply IH; lia. Qed.
Fixpoint marked (m : list bool) : nat := match m with [] => 0 | true :: r => S (marked r) | false :: r => marked r end.
Lemma put_app {A} m1 m2 (x1 x2 v1 v2 : list A) : length m1 = length x1 -> marked m1 = length v1 -> put_where (m1 ++ m2) (x1 ++ x2) (v1 ++ v2) = put_where m1 x1 v1 ++ put_where m2 x2 v2.
Proof.
  revert x1 v1; induction m1 as [|b m IH]; intros [|a x] v H K; cbn in *; try discriminate.
  - destruct v; [reflexivity|discriminate].
  - destruct b; cbn.
    + destruct v as [|w v]; [discriminate|]. cbn. f_equal. apply IH; cbn in K; lia.
    + f_equal. apply IH; lia.
Qed.
Definition first_of (s : list R) : list bool := match s with [] => [] | _ :: r => true :: map (fun _ => false) r end.
Definition last_of (s : list R) : list bool := match s with [] => [] | _ :: r => map (fun _ => false) r ++ [true] end.
Lemma first_length s : length (first_of s) = length s. Proof. destruct s; cbn; [reflexivity|]. rewrite map_length. reflexivity. Qed.
Lemma last_length s : length (last_of s) = length s. Proof. destruct s; cbn; [reflexivity|]. rewrite app_length, map_length. cbn. lia. Qed.
Lemma take_none {A} (x : list A) (r : list R) : length r = length x -> take_where (map negb (map (fun _ => false) r)) x = x.
Proof. revert x; induction r; intros [|a' x] H; cbn in *; try discriminate; [reflexivity|]. f_equal. apply IHr. lia. Qed.
Lemma take_last s : take_where (map negb (last_of s)) s = removelast s.
Proof.
  destruct s as [|a r]; [reflexivity|]. cbn [last_of]. revert a. induction r as [|b r IH]; intro a; cbn in *; [reflexivity|]. f_equal. apply IH.
Qed.
Lemma take_first s : take_where (map negb (first_of s)) s = tl s.
Proof. destruct s as [|a r]; [reflexivity|]. cbn. apply take_none. reflexivity. Qed.
Lemma marked_first s : marked (map negb (first_of s)) = length (removelast s).
Proof.
  destruct s as [|a r]; [reflexivity|]. cbn [first_of map negb marked]. revert a. induction r as [|b r IH]; intro a; cbn in *; [reflexivity|]. f_equal. apply IH.
Qed.
Lemma marked_last s : marked (map negb (last_of s)) = length (tl s).
Proof. destruct s as [|a r]; [reflexivity|]. cbn [last_of tl]. induction r as [|b r IH]; cbn in *; [reflexivity|]. f_equal. apply IH. Qed.
Definition strip_flags B2 s := transonic B2 (first_of s) (last_of s) s.
Lemma put_length {A} m (x v : list A) : length (put_where m x v) = length x.
Proof. revert x v; induction m as [|b m IH]; intros [|a x] v; cbn; try reflexivity; destruct b; cbn; try reflexivity; destruct v; cbn; try reflexivity; rewrite IH; reflexivity. Qed.
Lemma map2_len {A B C} (f : A -> B -> C) a b : length a = length b -> length (map2 f a b) = length a.
Proof. revert b; induction a; intros [|c b] H; cbn in *; try discriminate; [reflexivity|]. f_equal. apply IHa. lia. Qed.
Lemma T2F_length s : length (T2F (first_of s) (last_of s) s) = length s.
Proof. unfold T2F, clear_where. rewrite map2_len by (rewrite put_length, map_length, last_length; reflexivity). apply last_length. Qed.
Lemma T2A_length s : length (T2A (first_of s) (last_of s) s) = length s.
Proof. unfold T2A, clear_where. rewrite map2_len by (rewrite put_length, map_length, first_length; reflexivity). apply first_length. Qed.
Lemma transonic_strips B2 strips : transonic B2 (marks_first strips) (marks_last strips) (concat strips) = concat (map (strip_flags B2) strips).
Proof.
  unfold transonic. 
  assert (F : T2F (marks_first strips) (marks_last strips) (concat strips) = concat (map (fun s => T2F (first_of s) (last_of s) s) strips)).
  { induction strips as [|s r IH]; [reflexivity|]. unfold marks_first, marks_last in *. cbn [map concat]. fold (first_of s) (last_of s).
    rewrite <- IH. unfold T2F. rewrite !map_app, take_app by (rewrite map_length, last_length; reflexivity).
    rewrite put_app by (rewrite ?map_length, ?first_length, ?marked_first, ?take_last; reflexivity).
    unfold clear_where. rewrite map2_app by (rewrite put_length, map_length, last_length; reflexivity). reflexivity. }
  assert (A : T2A (marks_first strips) (marks_last strips) (concat strips) = concat (map (fun s => T2A (first_of s) (last_of s) s) strips)).
  { clear F. induction strips as [|s r IH]; [reflexivity|]. unfold marks_first, marks_last in *. cbn [map concat]. fold (first_of s) (last_of s).
    rewrite <- IH. unfold T2A. rewrite !map_app, take_app by (rewrite map_length, first_length; reflexivity).
    rewrite put_app by (rewrite ?map_length, ?last_length, ?marked_last, ?take_first; reflexivity).
    unfold clear_where. rewrite map2_app by (rewrite put_length, map_length, first_length; reflexivity). reflexivity. }
  rewrite F, A. clear F A. induction strips as [|s r IH]; [reflexivity|]. cbn [map concat]. rewrite map2_app by (rewrite T2F_length, T2A_length; reflexivity). rewrite IH. reflexivity.
Qed.
(** one strip, written out *)
Fixpoint shift_in (d : R) (l : list R) : list R := match l with [] => [] | a :: r => d :: shift_in a r end.
Lemma put_tail (r v : list R) (d : R) : length v = length r -> put_where (map negb (map (fun _ => false) r)) (map (fun _ => d) r) v = v.
Proof. revert v; induction r; intros [|b v] H; cbn in *; try discriminate; [reflexivity|]. f_equal. apply IHr. lia. Qed.
Lemma T2F_nth s k : (k < length s)%nat -> nth k (T2F (first_of s) (last_of s) s) 0 = if (0 <? k)%nat && (S k <? length s)%nat then nth (k - 1) s 0 else 0.
Proof.
  intro H. unfold T2F. rewrite take_last. destruct s as [|a r]; [cbn in H; lia|].
  cbn [first_of map negb]. 
  assert (P : put_where (false :: map negb (map (fun _ : R => false) r)) (0 :: map (fun _ => 0) r) (removelast (a :: r)) = 0 :: removelast (a :: r)).
  { cbn [put_where]. f_equal. apply put_tail. clear H. revert a; induction r; intro b; cbn in *; [reflexivity|]. f_equal. apply IHr. }
  rewrite P. clear P. 
  assert (G : forall d r a k, (k <= length r)%nat -> nth k (clear_where (last_of (a :: r)) (d :: removelast (a :: r))) 0 = if (S k <? S (length r))%nat then match k with O => d | S j => nth j (a :: r) 0 end else 0).
  { clear. intros d r. revert d. induction r as [|b r IH]; intros d a k Hk.
    - destruct k; [reflexivity|cbn in Hk; lia].
    - destruct k as [|k]; [reflexivity|]. cbn [length] in Hk. specialize (IH a b k ltac:(lia)).
      change (clear_where (last_of (a :: b :: r)) (d :: removelast (a :: b :: r))) with (d :: clear_where (last_of (b :: r)) (a :: removelast (b :: r))).
      cbn [nth length] in *. rewrite IH. change (S (S k) <? S (S (length r)))%nat with (S k <? S (length r))%nat. destruct (S k <? S (length r))%nat; [|reflexivity]. destruct k; reflexivity. }
  rewrite G by (cbn in H; lia). cbn [length]. destruct k as [|k]; [change (0 <? 0)%nat with false; cbn [andb]; destruct (1 <? S (length r))%nat; reflexivity|].
  replace (S k - 1)%nat with k by lia. change (0 <? S k)%nat with true. cbn [andb]. reflexivity.
Qed.
Lemma T2A_nth s k : (k < length s)%nat -> nth k (T2A (first_of s) (last_of s) s) 0 = if (0 <? k)%nat && (S k <? length s)%nat then nth (k + 1) s 0 else 0.
Proof.
  intro H. unfold T2A. rewrite take_first. destruct s as [|a r]; [cbn in H; lia|]. cbn [tl].
  assert (P : put_where (map negb (last_of (a :: r))) (map (fun _ => 0) (a :: r)) r = r ++ [0]).
  { cbn [last_of]. clear H. revert a; induction r as [|b r IH]; intro a; cbn in *; [reflexivity|]. f_equal. apply IH. exact 0. }
  rewrite P. clear P. 
  assert (C : clear_where (first_of (a :: r)) (r ++ [0]) = 0 :: tl (r ++ [0])).
  { cbn [first_of]. destruct r as [|b r]; [reflexivity|]. cbn. f_equal. clear. induction r; cbn in *; [reflexivity|]. f_equal. exact IHr. }
  rewrite C. destruct k as [|k]; [reflexivity|]. change (0 <? S k)%nat with true. cbn [andb nth length]. cbn in H.
  replace (S k + 1)%nat with (S (S k)) by lia. cbn [nth]. destruct r as [|b r]; [cbn in H; lia|]. cbn [app tl nth length] in *.
  destruct (Nat.ltb_spec (S (S k)) (S (S (length r)))) as [L|L].
  - rewrite app_nth1 by lia. reflexivity.
  - rewrite app_nth2 by lia. replace (k - length r)%nat with 0%nat by lia. reflexivity.
Qed.
Lemma nth_map2 {A B C} (f : A -> B -> C) x y k dx dy dc : length x = length y -> (k < length x)%nat -> nth k (map2 f x y) dc = f (nth k x dx) (nth k y dy).
Proof. revert y k; induction x as [|a x IH]; intros [|b y] k H K; cbn in *; try discriminate; [lia|]. destruct k; [reflexivity|]. apply IH; lia. Qed.
Lemma strip_flag B2 s k : (k < length s)%nat -> (nth k (strip_flags B2 s) false = true <-> crosses B2 s k).
Proof.
  intro H. unfold strip_flags, transonic. rewrite (nth_map2 _ _ _ _ 0 0) by (rewrite ?T2F_length, ?T2A_length; auto). rewrite T2F_nth, T2A_nth by exact H. unfold crosses.
  destruct (Nat.ltb_spec 0 k) as [A|A]; destruct (Nat.ltb_spec (S k) (length s)) as [B|B]; cbn [andb]; rewrite Rltb_true; split.
  - intro. auto.
  - intros [_ [_ ?]]. assumption.
  - intro. nra.
  - intros [? [? _]]. lia.
  - intro. nra.
  - intros [? [? _]]. lia.
  - intro. nra.
  - intros [? [? _]]. lia.
Qed.
Lemma flags_length B2 s : length (strip_flags B2 s) = length s.
Proof. unfold strip_flags, transonic. rewrite map2_len; [apply T2F_length|rewrite T2F_length, T2A_length; reflexivity]. Qed.
Lemma transonic_flag B2 pre s post k : (k < length s)%nat ->
  (nth (length (concat pre) + k) (transonic B2 (marks_first (pre ++ s :: post)) (marks_last (pre ++ s :: post)) (concat (pre ++ s :: post))) false = true <-> crosses B2 s k).
Proof.
  intro H. rewrite transonic_strips, map_app, concat_app. cbn [map concat].
  assert (L : length (concat (map (strip_flags B2) pre)) = length (concat pre)).
  { clear. induction pre; cbn; [reflexivity|]. rewrite !app_length, flags_length, IHpre. reflexivity. }
  rewrite app_nth2 by lia. rewrite L. replace (length (concat pre) + k - length (concat pre))%nat with k by lia. rewrite app_nth1 by (rewrite flags_length; exact H). apply strip_flag. exact H.
Qed.

(** ** the rows of transonic panels *)
Lemma fold_set (size : nat) (g : nat -> nat) (v : R) l w k : fold_left (fun w i => set_at size (g i) v w) l w k = if existsb (fun i => Nat.eqb k (g i)) l then v else w k.
Proof.
  revert w; induction l as [|i l IH]; intro w; cbn [fold_left existsb]; [reflexivity|]. rewrite IH. unfold set_at.
  destruct (existsb _ l); [rewrite orb_true_r; reflexivity|]. rewrite orb_false_r. reflexivity.
Qed.
Lemma in_flagged flags j : In j (flagged flags) <-> nth j flags false = true.
Proof.
  unfold flagged. rewrite filter_In, in_seq. split; [intros [_ H]; exact H|]. intro H. split; [|exact H].
  split; [lia|]. cbn. destruct (Nat.lt_ge_cases j (length flags)) as [L|L]; [lia|]. rewrite nth_overflow in H by exact L. discriminate.
Qed.
Lemma existsb_self size flags k g : existsb (fun i => Nat.eqb k (g i)) (map (fun j => (j * size + j)%nat) (flagged flags)) = true <-> exists j, nth j flags false = true /\ k = g (j * size + j)%nat.
Proof.
  rewrite existsb_exists. split.
  - intros [i [H E]]. apply in_map_iff in H. destruct H as [j [<- J]]. apply in_flagged in J. apply Nat.eqb_eq in E. exists j. auto.
  - intros [j [J E]]. exists (j * size + j)%nat. split; [apply in_map_iff; exists j; split; [reflexivity|apply in_flagged; exact J]|apply Nat.eqb_eq; exact E].
Qed.
Lemma stencil_entry size flags w i c : (i < size)%nat -> (c < size)%nat ->
  (forall j, nth j flags false = true -> (0 < j)%nat /\ (S j < size)%nat) ->
  stencil size flags w (i * size + c) =
    if nth i flags false then (if Nat.eqb c i then 2 else if Nat.eqb (S c) i || Nat.eqb c (S i) then -1 else 0) else w (i * size + c)%nat.
Proof.
  intros Hi Hc HF. unfold stencil. cbn zeta.
  rewrite (fold_set size S), (fold_set size (before size)), (fold_set size (fun i => i)).
  assert (DIV : ((i * size + c) / size = i)%nat) by (rewrite Nat.div_add_l by lia; rewrite Nat.div_small by lia; lia). rewrite DIV.
  assert (UNIQ : forall j d, (d < size)%nat -> (i * size + c = j * size + d)%nat -> i = j /\ c = d).
  { intros j d Hd E. assert (i = j). { apply (f_equal (fun n => n / size)%nat) in E. rewrite !Nat.div_add_l, !Nat.div_small in E by lia. lia. } subst. lia. }
  set (e1 := existsb (fun i0 => Nat.eqb (i * size + c) (S i0)) _). set (e2 := existsb (fun i0 => Nat.eqb (i * size + c) (before size i0)) _). set (e3 := existsb (fun i0 => Nat.eqb (i * size + c) i0) _).
  assert (E1 : e1 = true <-> nth i flags false = true /\ c = S i).
  { unfold e1. rewrite (existsb_self size flags _ S). split.
    - intros [j [J E]]. destruct (HF j J). destruct (UNIQ j (S j) ltac:(lia) ltac:(lia)). subst. auto.
    - intros [J ->]. exists i. split; [exact J|lia]. }
  assert (E2 : e2 = true <-> nth i flags false = true /\ S c = i).
  { unfold e2. rewrite (existsb_self size flags _ (before size)). split.
    - intros [j [J E]]. destruct (HF j J). destruct j as [|j]; [lia|]. assert (E' : before size (S j * size + S j) = (S j * size + j)%nat) by (replace (S j * size + S j)%nat with (S (S j * size + j)) by lia; reflexivity).
      rewrite E' in E. destruct (UNIQ (S j) j ltac:(lia) ltac:(lia)). subst. auto.
    - intros [J <-]. exists (S c). split; [exact J|]. replace (S c * size + S c)%nat with (S (S c * size + c)) by lia. reflexivity. }
  assert (E3 : e3 = true <-> nth i flags false = true /\ c = i).
  { unfold e3. rewrite (existsb_self size flags _ (fun i => i)). split.
    - intros [j [J E]]. destruct (HF j J). destruct (UNIQ j j ltac:(lia) ltac:(lia)). subst. auto.
    - intros [J ->]. exists i. auto. }
  clearbody e1 e2 e3. destruct (nth i flags false) eqn:F.
  - destruct (Nat.eqb_spec c i) as [C|C].
    + destruct e1; [exfalso; assert (c = S i) by (apply E1; reflexivity); lia|]. destruct e2; [exfalso; assert (S c = i) by (apply E2; reflexivity); lia|].
      assert (e3 = true) by (apply E3; auto). subst e3. reflexivity.
    + destruct e3; [exfalso; apply C; apply E3; reflexivity|].
      destruct (Nat.eqb_spec (S c) i) as [C1|C1]; cbn [orb].
      * assert (e2 = true) by (apply E2; auto). subst e2. destruct e1; reflexivity.
      * destruct e2; [exfalso; apply C1; apply E2; reflexivity|]. destruct (Nat.eqb_spec c (S i)) as [C2|C2]; [assert (e1 = true) by (apply E1; auto); subst e1; reflexivity|].
        destruct e1; [exfalso; apply C2; apply E1; reflexivity|reflexivity].
  - destruct e1; [exfalso; assert (false = true) by (apply E1; reflexivity); discriminate|]. destruct e2; [exfalso; assert (false = true) by (apply E2; reflexivity); discriminate|]. destruct e3; [exfalso; assert (false = true) by (apply E3; reflexivity); discriminate|]. reflexivity.
Qed.
Definition along (n : nat) (f : nat -> R) : R := total (map f (seq 0 n)).
Lemma total_app l m : total (l ++ m) = total l + total m. Proof. induction l; cbn [app]; unfold total in *; cbn [fold_right]; [ring|rewrite IHl; ring]. Qed.
Lemma along_S n f : along (S n) f = along n f + f n.
Proof. unfold along. rewrite seq_S, map_app, total_app. unfold total; cbn [map fold_right plus Nat.add]. ring. Qed.
Lemma along_ext n f g : (forall i, (i < n)%nat -> f i = g i) -> along n f = along n g.
Proof. intro H. unfold along. f_equal. apply map_ext_in. intros i Hi. apply in_seq in Hi. apply H. lia. Qed.
Lemma along_one n i v : (i < n)%nat -> along n (fun c => if Nat.eqb c i then v c else 0) = v i.
Proof.
  intro H. induction n as [|n IH]; [lia|]. rewrite along_S. destruct (Nat.eqb_spec n i) as [E|E].
  - subst. assert (Z : along i (fun c => if Nat.eqb c i then v c else 0) = 0).
    { clear. rewrite (along_ext _ _ (fun _ => 0)) by (intros j Hj; destruct (Nat.eqb_spec j i); [lia|reflexivity]). induction i; [reflexivity|]. rewrite along_S, IHi. lra. }
    lra.
  - rewrite IH by lia. lra.
Qed.
Lemma along_plus n f g : along n (fun c => f c + g c) = along n f + along n g.
Proof. induction n; [unfold along; cbn; lra|]. rewrite !along_S, IHn. lra. Qed.
Lemma stencil_row size flags w g i : (i < size)%nat -> (forall j, nth j flags false = true -> (0 < j)%nat /\ (S j < size)%nat) -> nth i flags false = true ->
  along size (fun c => stencil size flags w (i * size + c) * g c) = 2 * g i - g (i - 1)%nat - g (i + 1)%nat.
Proof.
  intros Hi HF F. destruct (HF i F) as [P Q].
  rewrite (along_ext _ _ (fun c => ((if Nat.eqb c i then 2 * g c else 0) + (if Nat.eqb c (i - 1) then - g c else 0)) + (if Nat.eqb c (i + 1) then - g c else 0))).
  - rewrite !along_plus, !along_one by lia. lra.
  - intros c Hc. rewrite stencil_entry by assumption. rewrite F.
    destruct (Nat.eqb_spec c i); destruct (Nat.eqb_spec (S c) i); destruct (Nat.eqb_spec c (S i)); destruct (Nat.eqb_spec c (i - 1)); destruct (Nat.eqb_spec c (i + 1)); cbn [orb]; try lia; ring.
Qed.
