(** * Airfoils, fuselages, tails, nacelles and origins: proofs *)
From Coq Require Import Reals List Arith ZArith Bool Lia Lra.
From Verif Require Import PyBase M_Opt P_Opt M_Drag P_Super M_Noise P_Noise P_Deriv M_Wing M_Geo2 S_Geo2.
Import ListNotations.
Local Open Scope R_scope.

(** ** airfoils *)
Lemma family_is t x : half_thickness t x = family t x.
Proof. unfold half_thickness, family. field. Qed.
Lemma mean_is m p x : p < 1 -> (p <> 0 \/ 0 <= x) -> camber_line m p x = mean_line m p x.
Proof.
  intros L N. unfold camber_line, mean_line. destruct (Rle_dec p x) as [G|G].
  - rewrite (proj2 (Rltb_false x p) G). field. lra.
  - rewrite (proj2 (Rltb_true x p)) by lra. field. destruct N; lra.
Qed.
Definition bell (te u : R) : R := pw u te * (te + 1 - te * u).
Lemma bunch_bell te x : bunch te x = 1 - bell te (1 - x).
Proof.
  unfold bunch, bell. destruct (Rle_lt_dec (1 - x) 0) as [N|N].
  - rewrite !pw_0 by exact N. ring.
  - rewrite !pw_pos by exact N. rewrite Rpower_plus, Rpower_1 by exact N. ring.
Qed.
Lemma bell_up te a b : 0 < te -> 0 <= a -> a < b -> b <= 1 -> bell te a < bell te b.
Proof.
  intros T A L B. unfold bell. rewrite (pw_pos b) by lra. destruct A as [A|<-].
  - rewrite pw_pos by exact A.
    apply (grows (fun u => Rpower u te * (te + 1 - te * u)) (fun u => (te * Rpower u (te - 1)) * (te + 1 - te * u) + Rpower u te * (0 - te * 1))); [exact L| |].
    + intros c C. apply (derivable_pt_lim_mult (fun u => Rpower u te) (fun u => te + 1 - te * u)).
      * apply derivable_pt_lim_power. lra.
      * apply (derivable_pt_lim_minus (fun _ => te + 1) (fun u => te * u)); [apply derivable_pt_lim_const|]. apply (derivable_pt_lim_scal (fun u => u)). apply derivable_pt_lim_id.
    + intros c C. replace (Rpower c te) with (Rpower c (te - 1) * c).
      2:{ rewrite <- (Rpower_1 c) at 2 by lra. rewrite <- Rpower_plus. f_equal. ring. }
      replace (te * Rpower c (te - 1) * (te + 1 - te * c) + Rpower c (te - 1) * c * (0 - te * 1)) with (Rpower c (te - 1) * (te * ((te + 1) * (1 - c)))) by ring.
      apply Rmult_lt_0_compat; [apply exp_pos|]. repeat apply Rmult_lt_0_compat; lra.
  - rewrite pw_0 by lra. rewrite Rmult_0_l. apply Rmult_lt_0_compat; [apply exp_pos|]. nra.
Qed.
Definition bunches (te : option R) : Prop := match te with Some e => 0 < e | None => True end.
Lemma bunched_up te a b : bunches te -> 0 <= a -> a < b -> b <= 1 -> bunched te a < bunched te b.
Proof.
  destruct te as [e|]; cbn [bunched bunches]; intros T A L B; [|exact L]. rewrite !bunch_bell.
  pose proof (bell_up e (1 - b) (1 - a) T ltac:(lra) ltac:(lra) ltac:(lra)). lra.
Qed.
Lemma bunched_0 te : bunched te 0 = 0.
Proof.
  destruct te as [e|]; [|reflexivity]. cbn [bunched]. unfold bunch. rewrite !Rminus_0_r. rewrite !pw_pos by lra.
  unfold Rpower. rewrite ln_1, !Rmult_0_r, exp_0. ring.
Qed.
Lemma bunched_1 te : bunched te 1 = 1.
Proof.
  destruct te as [e|]; [|reflexivity]. cbn [bunched]. unfold bunch. rewrite !(pw_0 (1 - 1)) by lra. ring.
Qed.

(** the abscissae *)
Definition grid (te : option R) (n i : nat) : R := bunched te (INR i / INR (n - 1)).
Lemma grid_list te n i : (2 <= n)%nat -> (i < n)%nat -> nth i (map (bunched te) (linspace 0 1 n)) 0 = grid te n i.
Proof.
  intros N I. rewrite (nth_indep _ 0 (bunched te 0)) by now rewrite map_length, linspace_length. rewrite map_nth, linspace_nth by assumption. unfold grid. f_equal. ring.
Qed.
Lemma frac n i : (2 <= n)%nat -> (i < n)%nat -> 0 <= INR i / INR (n - 1) <= 1.
Proof.
  intros N I. assert (0 < INR (n - 1)) by (apply lt_0_INR; lia). pose proof (pos_INR i). assert (INR i <= INR (n - 1)) by (apply le_INR; lia).
  split; [apply Rmult_le_pos; [assumption|left; now apply Rinv_0_lt_compat]|]. apply Rmult_le_reg_r with (INR (n - 1)); [assumption|]. unfold Rdiv. rewrite Rmult_assoc, Rinv_l by lra. lra.
Qed.
Lemma grid_up te n i j : bunches te -> (2 <= n)%nat -> (i < j)%nat -> (j < n)%nat -> grid te n i < grid te n j.
Proof.
  intros T N L J. pose proof (frac n i N ltac:(lia)). pose proof (frac n j N J). apply bunched_up; try lra; [exact T|].
  apply Rmult_lt_compat_r; [apply Rinv_0_lt_compat, lt_0_INR; lia|now apply lt_INR].
Qed.
Lemma grid_0 te n : grid te n 0 = 0.
Proof. unfold grid. change (INR 0) with 0. unfold Rdiv. rewrite Rmult_0_l. apply bunched_0. Qed.
Lemma grid_1 te n : (2 <= n)%nat -> grid te n (n - 1) = 1.
Proof. intro N. unfold grid. unfold Rdiv. rewrite Rinv_r by (apply not_0_INR; lia). apply bunched_1. Qed.
Lemma grid_range te n i : bunches te -> (2 <= n)%nat -> (i < n)%nat -> 0 <= grid te n i <= 1.
Proof.
  intros T N I. split.
  - rewrite <- (grid_0 te n). destruct i as [|i]; [lra|]. left. apply grid_up; assumption || lia.
  - apply Rle_trans with (grid te n (n - 1)); [|rewrite grid_1 by exact N; lra]. destruct (Nat.eq_dec i (n - 1)) as [->|D]; [lra|]. left. apply grid_up; assumption || lia.
Qed.
Lemma nth_tl {A} (l : list A) i d : nth i (tl l) d = nth (S i) l d.
Proof. destruct l; [destruct i; reflexivity|reflexivity]. Qed.
Lemma fold_min : forall l x, In (fold_left Rmin l x) (x :: l) /\ forall y, In y (x :: l) -> fold_left Rmin l x <= y.
Proof.
  induction l as [|a l IH]; intro x; cbn [fold_left].
  - split; [now left|]. intros y [<-|[]]. lra.
  - destruct (IH (Rmin x a)) as [I B]. split.
    + destruct I as [<-|I]; [|right; now right]. unfold Rmin. destruct (Rle_dec x a); [now left|right; now left].
    + intros y [<-|[<-|I']]; [eapply Rle_trans; [apply B; now left|apply Rmin_l]|eapply Rle_trans; [apply B; now left|apply Rmin_r]|apply B; now right].
Qed.
Lemma minl_is : forall l m, In m l -> (forall x, In x l -> m <= x) -> minl l = m.
Proof.
  intros [|x l] m I B; [easy|]. destruct (fold_min l x) as [I' B']. unfold minl. apply Rle_antisym; [now apply B'|now apply B].
Qed.

Lemma len_tl {A} (l : list A) : length (tl l) = (length l - 1)%nat. Proof. destruct l; cbn; lia. Qed.

Section Outline.
Variables (te : option R) (h u : nat).
Hypotheses (T : bunches te) (H2 : (2 <= h)%nat) (U2 : (2 <= u)%nat).
Let xl := map (bunched te) (linspace 0 1 h).
Let xu := map (bunched te) (linspace 0 1 u).
Let x := rev xl ++ tl xu.
Lemma len_xl : length xl = h. Proof. unfold xl. now rewrite map_length, linspace_length. Qed.
Lemma len_xu : length xu = u. Proof. unfold xu. now rewrite map_length, linspace_length. Qed.
Lemma len_x : length x = (h + u - 1)%nat. Proof. unfold x. rewrite app_length, rev_length, len_tl, len_xl, len_xu. lia. Qed.
Lemma x_low i : (i < h)%nat -> nth i x 0 = grid te h (h - 1 - i).
Proof.
  intro I. unfold x. rewrite app_nth1 by now rewrite rev_length, len_xl. rewrite rev_nth by now rewrite len_xl. rewrite len_xl. unfold xl. rewrite grid_list by lia. f_equal. lia.
Qed.
Lemma x_up i : (h <= i)%nat -> (i < h + u - 1)%nat -> nth i x 0 = grid te u (i - h + 1).
Proof.
  intros I J. unfold x. rewrite app_nth2 by (rewrite rev_length, len_xl; lia). rewrite rev_length, len_xl, nth_tl. unfold xu. rewrite grid_list by lia. f_equal. lia.
Qed.
Lemma nose : nth (h - 1) x 0 = 0.
Proof. rewrite x_low by lia. replace (h - 1 - (h - 1))%nat with 0%nat by lia. apply grid_0. Qed.
Lemma start : nth 0 x 0 = 1.
Proof. rewrite x_low by lia. replace (h - 1 - 0)%nat with (h - 1)%nat by lia. now apply grid_1. Qed.
Lemma finish : nth (h + u - 2) x 0 = 1.
Proof. rewrite x_up by lia. replace (h + u - 2 - h + 1)%nat with (u - 1)%nat by lia. now apply grid_1. Qed.
Lemma du : down_then_up x (h - 1).
Proof.
  split.
  - intros i j L J. rewrite !x_low by lia. apply grid_up; assumption || lia.
  - intros i j I L J. rewrite len_x in J. destruct (Nat.eq_dec i (h - 1)) as [->|D].
    + rewrite nose, x_up by lia. rewrite <- (grid_0 te u). apply grid_up; assumption || lia.
    + rewrite !x_up by lia. apply grid_up; assumption || lia.
Qed.
Lemma x_range i : (i < h + u - 1)%nat -> 0 <= nth i x 0 <= 1.
Proof. intro I. destruct (Nat.lt_ge_cases i h); [rewrite x_low by lia|rewrite x_up by lia]; apply grid_range; assumption || lia. Qed.
Lemma x_max : maxl x = 1.
Proof.
  apply maxl_is.
  - rewrite <- start. apply nth_In. rewrite len_x. lia.
  - intros y I. apply In_nth with (d := 0) in I. destruct I as (i & I & <-). rewrite len_x in I. now apply x_range.
Qed.
Lemma x_min : minl x = 0.
Proof.
  apply minl_is.
  - rewrite <- nose. apply nth_In. rewrite len_x. lia.
  - intros y I. apply In_nth with (d := 0) in I. destruct I as (i & I & <-). rewrite len_x in I. now apply x_range.
Qed.
Lemma y_both (fl fu : R -> R) : let y := rev (map fl xl) ++ tl (map fu xu) in
  length y = (h + u - 1)%nat /\ (forall i, (i < h)%nat -> nth i y 0 = fl (nth i x 0)) /\ (forall i, (h <= i)%nat -> (i < h + u - 1)%nat -> nth i y 0 = fu (nth i x 0)).
Proof.
  cbv zeta. split; [|split].
  - rewrite app_length, rev_length, len_tl, !map_length, len_xl, len_xu. lia.
  - intros i I. rewrite app_nth1 by now rewrite rev_length, map_length, len_xl. unfold x. rewrite app_nth1 by now rewrite rev_length, len_xl.
    rewrite <- map_rev. rewrite (nth_indep _ 0 (fl 0)) by now rewrite map_length, rev_length, len_xl. apply map_nth.
  - intros i I J. rewrite app_nth2 by (rewrite rev_length, map_length, len_xl; lia). unfold x. rewrite app_nth2 by (rewrite rev_length, len_xl; lia).
    rewrite !rev_length, map_length, len_xl, !nth_tl. rewrite (nth_indep _ 0 (fu 0)) by (rewrite map_length, len_xu; lia). apply map_nth.
Qed.
End Outline.

(** the airfoil itself *)
Lemma halves n : (3 <= n)%nat -> let h := ((n + 1) / 2)%nat in let u := (h + if Nat.even n then 1 else 0)%nat in (2 <= h)%nat /\ (2 <= u)%nat /\ (h + u - 1 = n)%nat.
Proof.
  intro N. cbv zeta. pose proof (Nat.div_mod (n + 1) 2 ltac:(lia)) as E. pose proof (Nat.mod_upper_bound (n + 1) 2 ltac:(lia)) as B.
  destruct (Nat.even n) eqn:V; [apply Nat.even_spec in V; destruct V as [k V]|].
  - assert ((n + 1) mod 2 = 1)%nat by (subst n; replace (2 * k + 1)%nat with (1 + k * 2)%nat by lia; rewrite Nat.mod_add by lia; reflexivity). lia.
  - assert (O : Nat.odd n = true) by (rewrite <- Nat.negb_even, V; reflexivity). apply Nat.odd_spec in O. destruct O as [k O].
    assert ((n + 1) mod 2 = 0)%nat by (subst n; replace (2 * k + 1 + 1)%nat with ((k + 1) * 2)%nat by lia; now rewrite Nat.mod_mul by lia). lia.
Qed.
Lemma keep {A B} (l : list A) (a b : B) : l <> [] -> match l with [] => a | _ :: _ => b end = b. Proof. destruct l; easy. Qed.
Lemma naca_out d0 d1 d2 d3 rest n te : digit d1 -> (d0 = 0%Z \/ d1 <> 0%Z) -> (3 <= n)%nat -> bunches te ->
  let m := IZR d0 / 100 in let p := IZR d1 / 10 in let t := IZR d2 / 10 + IZR d3 / 100 in
  exists f k, naca (d0 :: d1 :: d2 :: d3 :: rest) n te = Ok f /\ length (fo_x f) = n /\ length (fo_y f) = n /\
    (0 < k < n - 1)%nat /\ down_then_up (fo_x f) k /\ nth 0 (fo_x f) 0 = 1 /\ nth k (fo_x f) 0 = 0 /\ nth (n - 1) (fo_x f) 0 = 1 /\
    (forall i, (i <= k)%nat -> nth i (fo_y f) 0 = mean_line m p (nth i (fo_x f) 0) - family t (nth i (fo_x f) 0)) /\
    (forall i, (k < i < n)%nat -> nth i (fo_y f) 0 = mean_line m p (nth i (fo_x f) 0) + family t (nth i (fo_x f) 0)) /\
    fo_max f = t /\ fo_tc f = t /\ fo_camber f = m /\
    k = (length (fo_xl f) - 1)%nat /\ length (fo_xu f) = (n - k)%nat /\ length (fo_yu f) = length (fo_xu f) /\ length (fo_yl f) = length (fo_xl f) /\
    (forall i, (i <= k)%nat -> nth i (fo_xl f) 0 = nth (k - i) (fo_x f) 0 /\ nth i (fo_yl f) 0 = nth (k - i) (fo_y f) 0) /\
    (forall i, (k + i < n)%nat -> nth i (fo_xu f) 0 = nth (k + i) (fo_x f) 0 /\ nth i (fo_yu f) 0 = nth (k + i) (fo_y f) 0).
Proof.
  intros D1 Z N T m p t.
  assert (Pb : p < 1). { unfold p. assert (IZR d1 <= 9) by (apply IZR_le; apply D1). lra. }
  assert (Zc : forall x, 0 <= x -> camber_line m p x = mean_line m p x) by (intros x X; apply mean_is; [exact Pb|now right]).
  assert (Z0 : mean_line m p 0 = 0).
  { unfold mean_line. destruct Z as [->|Z]; [unfold m; destruct (Rle_dec p 0); unfold Rdiv; ring|].
    assert (0 < p). { unfold p. assert (1 <= IZR d1) by (apply IZR_le; destruct D1; lia). lra. }
    destruct (Rle_dec p 0); [lra|]. field. lra. }
  destruct (halves n N) as (H2 & U2 & HU). set (h := ((n + 1) / 2)%nat) in *. set (u := (h + if Nat.even n then 1 else 0)%nat) in *.
  assert (G : (negb (Z.eqb d0 0) && Z.eqb d1 0)%bool = false). { destruct Z as [->|Z]; [reflexivity|]. apply Z.eqb_neq in Z. rewrite Z. apply andb_false_r. }
  pose proof (y_both te h u H2 U2 (fun x => camber_line m p x - half_thickness t x) (fun x => camber_line m p x + half_thickness t x)) as (Ly & Yl & Yu).
  pose proof (len_x te h u H2 U2) as Lx. pose proof (du te h u T H2 U2) as DU. pose proof (start te h u H2 U2) as St. pose proof (nose te h u H2 U2) as No.
  pose proof (finish te h u H2 U2) as Fi. pose proof (x_max te h u T H2 U2) as Mx. pose proof (x_min te h u T H2 U2) as Mn. pose proof (x_range te h u T H2 U2) as Rg.
  pose proof (len_xl te h) as Ll. pose proof (len_xu te u) as Lu.
  unfold naca. cbv zeta. rewrite G. fold m p t h u.
  set (xl := map (bunched te) (linspace 0 1 h)) in *. set (xu := map (bunched te) (linspace 0 1 u)) in *.
  set (x := rev xl ++ tl xu) in *. set (yl := map (fun x => camber_line m p x - half_thickness t x) xl) in *.
  set (yu := tl (map (fun x => camber_line m p x + half_thickness t x) xu)) in *.
  rewrite keep by (intro E0; rewrite E0 in Lx; cbn [length] in Lx; lia).
  eexists. exists (h - 1)%nat. split; [reflexivity|]. cbn [fo_max fo_x fo_y fo_xu fo_xl fo_yu fo_yl fo_camber fo_tc].
  assert (Low : forall i, (i < h)%nat -> nth i (rev yl ++ yu) 0 = mean_line m p (nth i x 0) - family t (nth i x 0)).
  { intros i I. rewrite Yl by lia. cbv beta. rewrite Zc by (apply Rg; lia). now rewrite family_is. }
  assert (Upp : forall i, (h <= i)%nat -> (i < n)%nat -> nth i (rev yl ++ yu) 0 = mean_line m p (nth i x 0) + family t (nth i x 0)).
  { intros i I J. rewrite Yu by lia. cbv beta. rewrite Zc by (apply Rg; lia). now rewrite family_is. }
  assert (Lyl : length yl = h) by (unfold yl; now rewrite map_length, Ll).
  assert (Lyu : length yu = (u - 1)%nat) by (unfold yu; now rewrite len_tl, map_length, Lu).
  split; [lia|]. split; [lia|]. split; [lia|]. split; [exact DU|]. split; [exact St|]. split; [exact No|].
  split; [replace (n - 1)%nat with (h + u - 2)%nat by lia; exact Fi|]. split; [intros i I; apply Low; lia|]. split; [intros i I; apply Upp; lia|].
  split; [reflexivity|]. split; [rewrite Mx, Mn; field|]. split; [reflexivity|]. split; [lia|]. split; [lia|].
  split; [cbn [length]; lia|]. split; [rewrite rev_involutive; lia|]. split.
  - intros i I. rewrite rev_involutive. split.
    + unfold x. rewrite app_nth1 by (rewrite rev_length; lia). rewrite rev_nth by lia. f_equal. lia.
    + rewrite app_nth1 by (rewrite rev_length; lia). rewrite rev_nth by lia. f_equal. lia.
  - intros i I. destruct i as [|i].
    + rewrite Nat.add_0_r. split.
      * rewrite No. unfold xu. rewrite grid_list by lia. apply grid_0.
      * cbn [nth]. rewrite Low by lia. rewrite No, Z0. unfold family. rewrite sqrt_0. ring.
    + split.
      * unfold x. rewrite app_nth2 by (rewrite rev_length; lia). rewrite rev_length, Ll, nth_tl. f_equal. lia.
      * cbn [nth]. rewrite app_nth2 by (rewrite rev_length; lia). rewrite rev_length, Lyl. f_equal. lia.
Qed.
(** the curves *)
Lemma mean_le m p x : 0 <= m -> 0 < p < 1 -> mean_line m p x <= m.
Proof.
  intros M P. unfold mean_line. destruct (Rle_dec p x); [pose proof (pow2_ge_0 ((x - p) / (1 - p)))|pose proof (pow2_ge_0 ((p - x) / p))]; nra.
Qed.
Lemma mean_top m p x : 0 < m -> 0 < p < 1 -> (mean_line m p x = m <-> x = p).
Proof.
  intros M P. unfold mean_line. split.
  - destruct (Rle_dec p x) as [L|L]; intro E.
    + assert (Q : ((x - p) / (1 - p)) ^ 2 = 0) by nra. rewrite <- Rsqr_pow2 in Q. apply Rsqr_0_uniq in Q. apply Rmult_integral in Q. destruct Q as [Q|Q]; [lra|]. pose proof (Rinv_0_lt_compat (1 - p) ltac:(lra)). lra.
    + assert (Q : ((p - x) / p) ^ 2 = 0) by nra. rewrite <- Rsqr_pow2 in Q. apply Rsqr_0_uniq in Q. apply Rmult_integral in Q. destruct Q as [Q|Q]; [lra|]. pose proof (Rinv_0_lt_compat p ltac:(lra)). lra.
  - intros ->. destruct (Rle_dec p p); [|lra]. field. lra.
Qed.
Lemma mean_nonneg m p x : 0 <= m -> 0 < p < 1 -> 0 <= x <= 1 -> 0 <= mean_line m p x.
Proof.
  intros M P X. unfold mean_line. assert (K : forall q, 0 <= q <= 1 -> 0 <= 1 - q ^ 2) by (intros q Q; nra).
  destruct (Rle_dec p x) as [L|L]; (apply Rmult_le_pos; [exact M|]); apply K; split.
  - apply Rmult_le_pos; [lra|left; apply Rinv_0_lt_compat; lra].
  - apply Rmult_le_reg_r with (1 - p); [lra|]. unfold Rdiv. rewrite Rmult_assoc, Rinv_l by lra. lra.
  - apply Rmult_le_pos; [lra|left; apply Rinv_0_lt_compat; lra].
  - apply Rmult_le_reg_r with p; [lra|]. unfold Rdiv. rewrite Rmult_assoc, Rinv_l by lra. lra.
Qed.
Lemma mean_ends m p : 0 < p < 1 -> mean_line m p 0 = 0 /\ mean_line m p 1 = 0.
Proof. intro P. unfold mean_line. destruct (Rle_dec p 0); [lra|]. destruct (Rle_dec p 1); [|lra]. split; field; lra. Qed.
(** with s the root of x *)
Definition shape (s : R) : R := 2969 / 10000 * s - 126 / 1000 * s ^ 2 - 3516 / 10000 * s ^ 4 + 2843 / 10000 * s ^ 6 - 1015 / 10000 * s ^ 8.
Lemma family_shape t x : 0 <= x -> family t x = 5 * t * shape (sqrt x).
Proof. intro X. unfold family, shape. set (s := sqrt x). assert (E : x = s ^ 2) by (unfold s; now rewrite pow2_sqrt). rewrite E. field. Qed.
Lemma shape_pos s : 0 < s <= 1 -> 0 < shape s.
Proof.
  intro S. unfold shape.
  assert (0 < 2969 / 10000 - 126 / 1000 * s - 3516 / 10000 * s ^ 3 + 2843 / 10000 * s ^ 5 - 1015 / 10000 * s ^ 7).
  { assert (s ^ 7 <= s ^ 5) by (replace (s ^ 7) with (s ^ 5 * s ^ 2) by ring; assert (0 <= s ^ 5) by (apply pow_le; lra); assert (s ^ 2 <= 1) by nra; nra).
    assert (0 <= s ^ 2 <= 1) by nra. assert (s ^ 3 <= s) by (replace (s ^ 3) with (s * s ^ 2) by ring; nra). assert (s ^ 4 <= s ^ 2) by (replace (s ^ 4) with (s ^ 2 * s ^ 2) by ring; nra).
    assert (0 <= (1 - s) * (126 / 1000 + 1688 / 10000 * (1 + s + s ^ 2) - 1828 / 10000 * (s ^ 3 + s ^ 4))) by (apply Rmult_le_pos; lra).
    replace (2969 / 10000 - 126 / 1000 * s - 3516 / 10000 * s ^ 3 + 2843 / 10000 * s ^ 5 - 1015 / 10000 * s ^ 7)
      with ((1 - s) * (126 / 1000 + 1688 / 10000 * (1 + s + s ^ 2) - 1828 / 10000 * (s ^ 3 + s ^ 4)) + 21 / 10000 + 1015 / 10000 * (s ^ 5 - s ^ 7)) by field. lra. }
  replace (2969 / 10000 * s - 126 / 1000 * s ^ 2 - 3516 / 10000 * s ^ 4 + 2843 / 10000 * s ^ 6 - 1015 / 10000 * s ^ 8) with (s * (2969 / 10000 - 126 / 1000 * s - 3516 / 10000 * s ^ 3 + 2843 / 10000 * s ^ 5 - 1015 / 10000 * s ^ 7)) by ring.
  apply Rmult_lt_0_compat; lra.
Qed.
(** no thicker than named by more than a thousandth *)
Lemma shape_top s : 0 <= s <= 1 -> shape s <= 1001 / 10000.
Proof.
  intro S. unfold shape. assert (0 <= s ^ 2 <= 1) by nra. assert (0 <= s ^ 3 <= s) by (replace (s ^ 3) with (s * s ^ 2) by ring; nra).
  assert (0 <= s ^ 4 <= s ^ 2) by (replace (s ^ 4) with (s ^ 2 * s ^ 2) by ring; nra). assert (0 <= s ^ 5) by (apply pow_le; lra). assert (0 <= s ^ 6) by (apply pow_le; lra).
  assert (P : 0 <= (2732789601228331701 / 8192000000000000000) + (2338082753865291 / 10240000000000000) * s ^ 1 + (1449356315163 / 10240000000000) * s ^ 2 + (- (7829669823 / 32000000000)) * s ^ 3 + (- (61767751 / 320000000)) * s ^ 4 + (44457 / 400000) * s ^ 5 + (203 / 2000) * s ^ 6) by lra.
  pose proof (pow2_ge_0 (s - (219 / 400))) as Q. assert (W := Rmult_le_pos _ _ Q P).
  assert (L : 0 <= (93340896849665628523 / 1310720000000000000000000) + (- (24206072282144783 / 409600000000000000000)) * (s - (219 / 400))) by lra.
  assert (E : 1001 / 10000 - (2969 / 10000 * s - 126 / 1000 * s ^ 2 - 3516 / 10000 * s ^ 4 + 2843 / 10000 * s ^ 6 - 1015 / 10000 * s ^ 8) =
    (s - (219 / 400)) ^ 2 * ((2732789601228331701 / 8192000000000000000) + (2338082753865291 / 10240000000000000) * s ^ 1 + (1449356315163 / 10240000000000) * s ^ 2 + (- (7829669823 / 32000000000)) * s ^ 3 + (- (61767751 / 320000000)) * s ^ 4 + (44457 / 400000) * s ^ 5 + (203 / 2000) * s ^ 6) + ((93340896849665628523 / 1310720000000000000000000) + (- (24206072282144783 / 409600000000000000000)) * (s - (219 / 400)))) by field.
  lra.
Qed.

(** ** wing boxes *)
Lemma cos_atan_slope s : cos (atan s) = / sqrt (1 + s ^ 2).
Proof. rewrite cos_atan. unfold Rsqr, Rdiv. rewrite Rmult_1_l. do 3 f_equal. ring. Qed.
Lemma spar_is t c x : spar_half t c x = c * family t x.
Proof. unfold spar_half, family. field. Qed.
Lemma front_exists m p : 1 / 10 < p -> derivable_pt_lim (mean_line m p) (1 / 10) (2 * m / p ^ 2 * (p - 1 / 10)).
Proof.
  intros P.
  apply (derivable_pt_lim_locally_ext (fun x => m * (1 - ((p - x) / p) ^ 2)) _ _ 0 p); [lra| |].
  - intros z Z. unfold mean_line. destruct (Rle_dec p z); [lra|reflexivity].
  - replace (2 * m / p ^ 2 * (p - 1 / 10)) with (m * (0 - (INR 2 * ((p - 1 / 10) / p) ^ 1 * ((0 - 1) * / p)))) by (cbn [INR]; field; lra).
    apply (derivable_pt_lim_scal (fun x => 1 - ((p - x) / p) ^ 2)). apply (derivable_pt_lim_minus (fun _ => 1) (fun x => ((p - x) / p) ^ 2)); [apply derivable_pt_lim_const|].
    apply (derivable_pt_lim_comp (fun x => (p - x) / p) (fun y => y ^ 2)); [|apply (derivable_pt_lim_pow ((p - 1 / 10) / p) 2)].
    apply (derivable_pt_lim_ext (fun x => / p * (p - x))); [intro; unfold Rdiv; ring|]. rewrite (Rmult_comm (0 - 1)). apply (derivable_pt_lim_scal (fun x => p - x)).
    apply (derivable_pt_lim_minus (fun _ => p) (fun x => x)); [apply derivable_pt_lim_const|apply derivable_pt_lim_id].
Qed.
Lemma rear_exists m p : p < 6 / 10 -> derivable_pt_lim (mean_line m p) (6 / 10) (2 * m / (1 - p) ^ 2 * (p - 6 / 10)).
Proof.
  intros P.
  apply (derivable_pt_lim_locally_ext (fun x => m * (1 - ((x - p) / (1 - p)) ^ 2)) _ _ p 1); [lra| |].
  - intros z Z. unfold mean_line. destruct (Rle_dec p z); [reflexivity|lra].
  - replace (2 * m / (1 - p) ^ 2 * (p - 6 / 10)) with (m * (0 - (INR 2 * ((6 / 10 - p) / (1 - p)) ^ 1 * ((1 - 0) * / (1 - p))))) by (cbn [INR]; field; lra).
    apply (derivable_pt_lim_scal (fun x => 1 - ((x - p) / (1 - p)) ^ 2)). apply (derivable_pt_lim_minus (fun _ => 1) (fun x => ((x - p) / (1 - p)) ^ 2)); [apply derivable_pt_lim_const|].
    apply (derivable_pt_lim_comp (fun x => (x - p) / (1 - p)) (fun y => y ^ 2)); [|apply (derivable_pt_lim_pow ((6 / 10 - p) / (1 - p)) 2)].
    apply (derivable_pt_lim_ext (fun x => / (1 - p) * (x - p))); [intro; unfold Rdiv; ring|]. rewrite (Rmult_comm (1 - 0)). apply (derivable_pt_lim_scal (fun x => x - p)).
    apply (derivable_pt_lim_minus (fun x => x) (fun _ => p)); [apply derivable_pt_lim_id|apply derivable_pt_lim_const].
Qed.
Lemma mean_front m p sf : 1 / 10 < p -> derivable_pt_lim (mean_line m p) (1 / 10) sf -> sf = 2 * m / p ^ 2 * (p - 1 / 10).
Proof. intros P D. apply (uniqueness_limite (mean_line m p) (1 / 10)); [exact D|now apply front_exists]. Qed.
Lemma mean_rear m p sr : p < 6 / 10 -> derivable_pt_lim (mean_line m p) (6 / 10) sr -> sr = 2 * m / (1 - p) ^ 2 * (p - 6 / 10).
Proof. intros P D. apply (uniqueness_limite (mean_line m p) (6 / 10)); [exact D|now apply rear_exists]. Qed.
Lemma slopes_exist m p : 1 / 10 < p < 6 / 10 -> exists sf sr, derivable_pt_lim (mean_line m p) (1 / 10) sf /\ derivable_pt_lim (mean_line m p) (6 / 10) sr.
Proof. intro P. do 2 eexists. split; [apply front_exists|apply rear_exists]; lra. Qed.
Lemma swept_unique A h V W : 0 < h -> swept_volume A h V -> swept_volume A h W -> V = W.
Proof.
  intros H (F & DF & ->) (G & DG & ->).
  destruct (MVT_cor2 (fun y => F y - G y) (fun y => A y - A y) 0 h H) as (c & E & _).
  - intros c _. now apply (derivable_pt_lim_minus F G).
  - lra.
Qed.
Lemma swept_square k root tip h : h <> 0 -> swept_volume (fun y => k * chord_at root tip h y ^ 2) h (k * h * (root ^ 2 + root * tip + tip ^ 2) / 3).
Proof.
  intro H. exists (fun y => k * (root ^ 2 * y + (root * (tip - root) / h) * y ^ 2 + ((tip - root) ^ 2 / h ^ 2 / 3) * y ^ 3)). split.
  - intro y. replace (k * chord_at root tip h y ^ 2) with (k * (root ^ 2 * 1 + (root * (tip - root) / h) * (INR 2 * y ^ 1) + ((tip - root) ^ 2 / h ^ 2 / 3) * (INR 3 * y ^ 2)))
      by (unfold chord_at; cbn [INR]; field; exact H).
    apply (derivable_pt_lim_scal (fun y => root ^ 2 * y + (root * (tip - root) / h) * y ^ 2 + ((tip - root) ^ 2 / h ^ 2 / 3) * y ^ 3)).
    apply (derivable_pt_lim_plus (fun y => root ^ 2 * y + (root * (tip - root) / h) * y ^ 2) (fun y => ((tip - root) ^ 2 / h ^ 2 / 3) * y ^ 3)).
    + apply (derivable_pt_lim_plus (fun y => root ^ 2 * y) (fun y => (root * (tip - root) / h) * y ^ 2)).
      * apply (derivable_pt_lim_scal (fun y => y)). apply derivable_pt_lim_id.
      * apply (derivable_pt_lim_scal (fun y => y ^ 2)). apply (derivable_pt_lim_pow y 2).
    + apply (derivable_pt_lim_scal (fun y => y ^ 3)). apply (derivable_pt_lim_pow y 3).
  - field. exact H.
Qed.
Lemma slope_root s : 0 < sqrt (1 + s ^ 2).
Proof. apply sqrt_lt_R0. pose proof (pow2_ge_0 s). lra. Qed.
Lemma box_is t sf sr c : box_area t sf sr c = (family t (1 / 10) / sqrt (1 + sf ^ 2) + family t (6 / 10) / sqrt (1 + sr ^ 2)) / 2 * c ^ 2.
Proof. unfold box_area. pose proof (slope_root sf). pose proof (slope_root sr). field. lra. Qed.
Lemma box_exists w sf sr : 0 < v_span w -> exists V, swept_volume (fun y => box_area (v_tc w) sf sr (chord_at (v_root w) (v_tip w) (v_span w / 2) y)) (v_span w / 2) V.
Proof.
  intro B. eexists. destruct (swept_square ((family (v_tc w) (1 / 10) / sqrt (1 + sf ^ 2) + family (v_tc w) (6 / 10) / sqrt (1 + sr ^ 2)) / 2) (v_root w) (v_tip w) (v_span w / 2) ltac:(lra)) as (F & D & E).
  exists F. split; [|exact E]. intro y. rewrite box_is. apply D.
Qed.
Lemma volume_is w m p sf sr V : 1 / 10 < p < 6 / 10 -> derivable_pt_lim (mean_line m p) (1 / 10) sf -> derivable_pt_lim (mean_line m p) (6 / 10) sr -> 0 < v_span w ->
  swept_volume (fun y => box_area (v_tc w) sf sr (chord_at (v_root w) (v_tip w) (v_span w / 2) y)) (v_span w / 2) V ->
  internal_volume w m p = Ok (2 * V - v_span w * (2 * family (v_tc w) (1 / 10) / sqrt (1 + sf ^ 2)) * (v_root w ^ 2 - v_tip w ^ 2) / 24).
Proof.
  intros P DF DR B SV. set (k := (family (v_tc w) (1 / 10) / sqrt (1 + sf ^ 2) + family (v_tc w) (6 / 10) / sqrt (1 + sr ^ 2)) / 2).
  assert (EV : V = k * (v_span w / 2) * (v_root w ^ 2 + v_root w * v_tip w + v_tip w ^ 2) / 3).
  { apply (swept_unique (fun y => k * chord_at (v_root w) (v_tip w) (v_span w / 2) y ^ 2) (v_span w / 2)); [lra| |apply swept_square; lra].
    destruct SV as (F & D & E). exists F. split; [|exact E]. intro y. specialize (D y). rewrite box_is in D. exact D. }
  apply mean_front in DF; [|lra]. apply mean_rear in DR; [|lra]. rewrite EV. unfold k.
  unfold internal_volume. destruct (Req_EM_T p 0); [lra|]. destruct (Req_EM_T p 1); [lra|]. destruct (Req_EM_T (v_span w) 0); [lra|]. cbv zeta. f_equal.
  unfold front_angle, rear_angle. rewrite !cos_atan_slope, !spar_is. rewrite <- DF, <- DR. pose proof (slope_root sf). pose proof (slope_root sr).
  set (a := front_camber m p (v_root w)). set (b := front_camber m p (v_tip w)). set (c := rear_camber m p (v_root w)). set (d := rear_camber m p (v_tip w)). field. lra.
Qed.

(** ** fuselages *)
Lemma round_near x : IZR (np_round x) - 1 / 2 <= x <= IZR (np_round x) + 1 / 2.
Proof.
  unfold np_round. destruct (base_Int_part x) as [A B]. destruct (Rltb (x - IZR (Int_part x)) (1 / 2)) eqn:E; [apply Rltb_true in E; lra|]. apply Rltb_false in E.
  destruct (Rltb (1 / 2) (x - IZR (Int_part x))) eqn:F; [rewrite plus_IZR; lra|]. apply Rltb_false in F. destruct (Z.even (Int_part x)); [lra|rewrite plus_IZR; lra].
Qed.
Lemma int_part_is x n : IZR n <= x < IZR n + 1 -> Int_part x = n.
Proof. intro H. unfold Int_part. assert (E : (n + 1)%Z = up x) by (apply tech_up; rewrite plus_IZR; lra). rewrite <- E. lia. Qed.
Lemma round_int n : np_round (IZR n) = n.
Proof. unfold np_round. rewrite (int_part_is (IZR n) n) by lra. rewrite (proj2 (Rltb_true _ _)) by lra. reflexivity. Qed.
Lemma round_nonneg x : 0 <= x -> (0 <= np_round x)%Z.
Proof.
  intro X. assert (I : (0 <= Int_part x)%Z). { destruct (base_Int_part x) as [A B]. assert (-1 < IZR (Int_part x)) by lra. apply lt_IZR in H. lia. }
  unfold np_round. destruct (Rltb _ _); [exact I|]. destruct (Rltb _ _); [lia|]. destruct (Z.even _); lia.
Qed.
Lemma oval_bounds a b : 0 <= a -> 0 <= b -> a + b <> 0 ->
  a + b <= effective a b /\ effective a b <= 61 / 48 * (a + b) /\ PI * (a + b) <= circumference a b /\ circumference a b <= 14 / 11 * (PI * (a + b)).
Proof.
  intros A B N. assert (P : 0 < a + b) by lra. set (q := oval a b ^ 2). assert (Q : 0 <= q <= 1).
  { unfold q, oval. split; [apply pow2_ge_0|]. replace (((a - b) / (a + b)) ^ 2) with ((a - b) ^ 2 / (a + b) ^ 2) by (field; lra). apply Rmult_le_reg_r with ((a + b) ^ 2); [nra|]. unfold Rdiv. rewrite Rmult_assoc, Rinv_l by nra. nra. }
  assert (E : effective a b = (a + b) * ((64 - 3 * q ^ 2) / (64 - 16 * q))) by (unfold effective, q; field; fold q; lra).
  assert (E1 : 1 <= (64 - 3 * q ^ 2) / (64 - 16 * q)) by (apply Rmult_le_reg_r with (64 - 16 * q); [lra|]; unfold Rdiv; rewrite Rmult_assoc, Rinv_l by lra; nra).
  assert (E2 : (64 - 3 * q ^ 2) / (64 - 16 * q) <= 61 / 48) by (apply Rmult_le_reg_r with (64 - 16 * q); [lra|]; unfold Rdiv; rewrite Rmult_assoc, Rinv_l by lra; nra).
  set (s := sqrt (4 - 3 * q)). assert (S : 1 <= s). { unfold s. apply Rle_trans with (sqrt 1); [rewrite sqrt_1; lra|apply sqrt_le_1; lra]. }
  assert (C : circumference a b = PI * (a + b) * (1 + 3 * q / (10 + s))) by reflexivity.
  assert (C1 : 0 <= 3 * q / (10 + s)) by (apply Rmult_le_pos; [lra|left; apply Rinv_0_lt_compat; lra]).
  assert (C2 : 3 * q / (10 + s) <= 3 / 11) by (apply Rmult_le_reg_r with (10 + s); [lra|]; unfold Rdiv; rewrite Rmult_assoc, Rinv_l by lra; nra).
  pose proof PI_RGT_0. assert (0 < PI * (a + b)) by (apply Rmult_lt_0_compat; lra). rewrite E, C. repeat split; nra.
Qed.
Lemma oval_scale k w h : 0 < k -> w / 2 + h / 2 <> 0 -> oval (k * w / 2) (k * h / 2) = oval (w / 2) (h / 2).
Proof.
  intros K N. unfold oval. replace (k * w / 2 - k * h / 2) with (k * (w / 2 - h / 2)) by field. replace (k * w / 2 + k * h / 2) with (k * (w / 2 + h / 2)) by field.
  set (s := w / 2 + h / 2) in *. field. lra.
Qed.

Lemma turned a b : circumference a b = circumference b a /\ effective a b = effective b a.
Proof. assert (E : a + b <> 0 -> oval a b = - oval b a) by (intro; unfold oval; field; lra). unfold circumference, effective. destruct (Req_dec (a + b) 0) as [Z|Z].
  - replace (b + a) with (a + b) by ring. rewrite Z. unfold Rdiv. rewrite !Rmult_0_r, !Rmult_0_l. split; reflexivity.
  - rewrite (E Z), (Rplus_comm b a). replace ((- oval b a) ^ 2) with (oval b a ^ 2) by ring. replace ((- oval b a) ^ 4) with (oval b a ^ 4) by ring. split; reflexivity.
Qed.

(** ** origins *)
Lemma bind_err {A B} (r : result A) (f : A -> B) e : bind r (fun a => Ok (f a)) = Err e -> r = Err e.
Proof. destruct r; cbn [bind]; intro E; [discriminate|congruence]. Qed.
Lemma bind_ok {A B} (r : result A) (f : A -> B) b : bind r (fun a => Ok (f a)) = Ok b -> exists a, r = Ok a /\ b = f a.
Proof. destruct r as [a|]; cbn [bind]; intro E; [injection E as <-; eauto|discriminate]. Qed.
Lemma mapr_spec {A B} (f : A -> result B) : forall l bs, mapr f l = Ok bs -> length bs = length l /\ forall i a, nth_error l i = Some a -> exists b, nth_error bs i = Some b /\ f a = Ok b.
Proof.
  induction l as [|a l IH]; intros bs E; cbn [mapr] in E.
  - injection E as <-. split; [reflexivity|]. intros [|i] a H; discriminate.
  - destruct (f a) as [b|] eqn:F; [|discriminate]. cbn [bind] in E. destruct (mapr f l) as [bs'|]; [|discriminate]. cbn [bind] in E. injection E as <-. destruct (IH bs' eq_refl) as [L S].
    split; [cbn [length]; congruence|]. intros [|i] a' H; cbn [nth_error] in *; [injection H as <-; eauto|eauto].
Qed.
Lemma mapr_err {A B} (f : A -> result B) e : forall l, (forall a, In a l -> (exists b, f a = Ok b) \/ f a = Err e) -> (exists bs, mapr f l = Ok bs) \/ mapr f l = Err e.
Proof.
  induction l as [|a l IH]; intro H; cbn [mapr]; [left; eauto|]. destruct (H a (or_introl eq_refl)) as [[b ->]| ->]; [|now right]. cbn [bind].
  destruct IH as [[bs ->]| ->]; [intros; apply H; now right|left; cbn; eauto|now right].
Qed.
Lemma mapr_bad {A B} (f : A -> result B) e : forall l a, In a l -> f a = Err e -> (forall a, In a l -> (exists b, f a = Ok b) \/ f a = Err e) -> mapr f l = Err e.
Proof.
  induction l as [|x l IH]; intros a I E H; [destruct I|]. cbn [mapr]. destruct (H x (or_introl eq_refl)) as [[b X]|X]; rewrite X; cbn [bind]; [|reflexivity].
  destruct I as [->|I]; [congruence|]. rewrite (IH a I E); [reflexivity|]. intros; apply H; now right.
Qed.
Lemma mapr_find {A B} (f : A -> result B) e : forall l, mapr f l = Err e -> exists a, In a l /\ f a = Err e.
Proof.
  induction l as [|x l IH]; cbn [mapr]; intro E; [discriminate|]. destruct (f x) as [b|e'] eqn:X; cbn [bind] in E.
  - destruct (mapr f l) as [bs|e']; cbn [bind] in E; [discriminate|]. destruct (IH E) as (a & I & F). exists a. split; [now right|exact F].
  - exists x. split; [now left|congruence].
Qed.
Lemma nth_error_seq n i : (i < n)%nat -> nth_error (seq 0 n) i = Some i.
Proof. intro I. rewrite (nth_error_nth' _ 0%nat) by now rewrite seq_length. now rewrite seq_nth. Qed.
Lemma nd_ok v v' : non_dimensional v = Ok v' -> exists ns,
  mapr (fun n => bind (mapr (fun i => bind (item (ne_origin n) i) (fun p => Ok (scaled (/ length_scale v) p))) (seq 0 (ne_engines n))) (fun l => Ok (Net (ne_engines n) (ne_origin n) l))) (cr_nets v) = Ok ns /\
  v' = Craft (cr_fuselage v) (cr_main v) (map (fun b => (fst b, map (scaled (/ length_scale v)) (fst b))) (cr_bodies v)) ns.
Proof. unfold non_dimensional. cbv zeta. destruct (mapr _ (cr_nets v)) as [ns|]; [|discriminate]. cbn [bind]. intro E. injection E as <-. eauto. Qed.
Lemma di_ok v v' : dimensional v = Ok v' -> exists ns,
  mapr (fun n => bind (mapr (engine_origin (length_scale v) (ne_engines n) (ne_plain n)) (seq 0 (ne_engines n))) (fun l => Ok (Net (ne_engines n) l (ne_plain n)))) (cr_nets v) = Ok ns /\
  v' = Craft (cr_fuselage v) (cr_main v) (map (fun b => (map (scaled (length_scale v)) (snd b), snd b)) (cr_bodies v)) ns.
Proof. unfold dimensional. cbv zeta. destruct (mapr _ (cr_nets v)) as [ns|]; [|discriminate]. cbn [bind]. intro E. injection E as <-. eauto. Qed.

(** ** sizing *)
Lemma span_is w : p_span (wing_planform w) = sqrt (w_ar w * w_sref w).
Proof. unfold wing_planform. destruct (w_vertical w), (w_flap w); reflexivity. Qed.
Lemma lbf_pos : 0 < lbf.
Proof. unfold lbf. lra. Qed.
Lemma Rpower_mult_distr' x y z : 0 < x -> 0 < y -> Rpower (x * y) z = Rpower x z * Rpower y z.
Proof. intros. symmetry. now apply Rpower_mult_distr. Qed.
