(** C216: grid of points behind a wing.  C217: grid of points at a propeller.
    C218: viscous deficit of a wing's wake. *)
From Coq Require Import Reals List Bool Arith Lra Lia.
From Verif Require Import PyBase M_Opt P_Opt M_Noise M_Grid3.
Import ListNotations.
Local Open Scope R_scope.

(** * C216 *)
Lemma linspace_length a b n : List.length (linspace a b n) = n.
Proof. unfold linspace. now rewrite map_length, seq_length. Qed.
Lemma linspace_in a b n v : a <= b -> In v (linspace a b n) -> a <= v <= b.
Proof.
  intros H I. unfold linspace in I. apply in_map_iff in I. destruct I as (i & E & I). apply in_seq in I.
  destruct (Nat.eqb_spec n 1) as [->|N]; [lra|]. subst v.
  assert (0 < INR (n - 1)) by (apply lt_0_INR; lia).
  assert (INR i <= INR (n - 1)) by (apply le_INR; lia).
  assert (0 <= INR i) by apply pos_INR.
  assert (F : INR i * ((b - a) / INR (n - 1)) = (b - a) * (INR i / INR (n - 1))) by (field; lra).
  rewrite F. assert (0 <= INR i / INR (n - 1) <= 1).
  { split; [apply Rmult_le_pos; [lra|left; apply Rinv_0_lt_compat; lra]|].
    apply Rmult_le_reg_r with (INR (n - 1)); [lra|]. field_simplify; lra. }
  nra.
Qed.

Lemma repeat_each_length l n : List.length (repeat_each l n) = (List.length l * n)%nat.
Proof.
  induction l as [|a t IH]; [reflexivity|]. cbn. rewrite app_length, repeat_length.
  unfold repeat_each in IH. rewrite IH. reflexivity.
Qed.
Lemma tile_length l n : List.length (tile l n) = (n * List.length l)%nat.
Proof. induction n as [|k IH]; [reflexivity|]. cbn. rewrite app_length, IH. reflexivity. Qed.
Lemma repeat_each_nth l n : forall i j, (j < n)%nat -> nth_error (repeat_each l n) (i * n + j) = nth_error l i.
Proof.
  induction l as [|a t IH]; intros i j H; cbn.
  - destruct (i * n + j)%nat, i; reflexivity.
  - destruct i as [|i]; cbn.
    + rewrite nth_error_app1 by (rewrite repeat_length; lia). apply nth_error_repeat. lia.
    + rewrite nth_error_app2 by (rewrite repeat_length; lia). rewrite repeat_length.
      replace (n + i * n + j - n)%nat with (i * n + j)%nat by lia. apply IH. exact H.
Qed.
Lemma tile_nth l n : forall i j, (i < n)%nat -> (j < List.length l)%nat ->
  nth_error (tile l n) (i * List.length l + j) = nth_error l j.
Proof.
  induction n as [|k IH]; intros i j Hi Hj; [lia|]. cbn. destruct i as [|i]; cbn.
  - now rewrite nth_error_app1 by lia.
  - rewrite nth_error_app2 by lia.
    replace (List.length l + i * List.length l + j - List.length l)%nat with (i * List.length l + j)%nat by lia.
    apply IH; lia.
Qed.

(** The grid is the full product of its two lines: the points are as many as
    pairs, and point i·(number of heights)+j lies in the plane at the i-th
    spanwise place and the j-th height. *)
Theorem C216_product span H L hf xp Nzo Nzf Nyo ypts :
  let g := wake_grid span H L hf xp Nzo Nzf Nyo ypts in
  let n := List.length (g_zline g) in
  List.length (g_y g) = (List.length (g_yline g) * n)%nat /\
  List.length (g_z g) = List.length (g_y g) /\ List.length (g_x g) = List.length (g_y g) /\
  n = (2 * (Nzo / 2) + 2 * Nzf)%nat /\
  forall i j y z, nth_error (g_yline g) i = Some y -> nth_error (g_zline g) j = Some z ->
    nth_error (g_x g) (i * n + j) = Some xp /\
    nth_error (g_y g) (i * n + j) = Some y /\
    nth_error (g_z g) (i * n + j) = Some z.
Proof.
  intros g n. unfold g in *. cbn [g_x g_y g_z g_yline g_zline wake_grid] in *. fold n.
  split; [apply repeat_each_length|]. split; [rewrite tile_length, repeat_each_length; reflexivity|].
  split; [apply map_length|]. split.
  { unfold n, zline. rewrite !app_length, !map_length, rev_length, map_length, !linspace_length. lia. }
  intros i j y z Hy Hz.
  assert (Li : (i < List.length (yline (span / 2) L Nyo ypts))%nat) by (apply nth_error_Some; congruence).
  assert (Lj : (j < n)%nat) by (apply nth_error_Some; congruence).
  assert (A : nth_error (repeat_each (yline (span / 2) L Nyo ypts) n) (i * n + j) = Some y)
    by (rewrite repeat_each_nth; auto).
  split; [|split; [exact A|]].
  - erewrite map_nth_error; [reflexivity|exact A].
  - unfold n. rewrite tile_nth; auto.
Qed.

(** The grid is the same seen from either side of the aircraft. *)
Theorem C216_mirror span H L hf xp Nzo Nzf Nyo ypts :
  let g := wake_grid span H L hf xp Nzo Nzf Nyo ypts in
  map Ropp (g_yline g) = rev (g_yline g).
Proof.
  cbn. unfold yline. set (s := semispan _ _ _ _). rewrite rev_app_distr, rev_involutive, map_app, map_rev, map_map.
  assert (E : map (fun x => - - x) s = s).
  { rewrite <- (map_id s) at 2. apply map_ext. intro. apply Ropp_involutive. }
  rewrite E. reflexivity.
Qed.

Lemma cos01 s : 0 <= s <= 1 -> 0 <= 1 - cos (s * PI / 2) <= 1.
Proof.
  intro H. pose proof (COS_bound (s * PI / 2)). pose proof PI_RGT_0.
  assert (0 <= cos (s * PI / 2)) by (apply cos_ge_0; nra). lra.
Qed.

(** Heights: none is beyond the box of half height H times the half span. *)
Theorem C216_height span H L hf xp Nzo Nzf Nyo ypts z :
  0 <= hf <= H * (span / 2) ->
  let g := wake_grid span H L hf xp Nzo Nzf Nyo ypts in
  In z (g_z g) -> Rabs z <= H * (span / 2).
Proof.
  intros B g I. unfold g in I. cbn in I.
  assert (J : In z (zline (span / 2) H hf Nzo Nzf)).
  { revert I. generalize (List.length (yline (span / 2) L Nyo ypts)). intro n. induction n; cbn; [tauto|].
    intro I. apply in_app_or in I. tauto. }
  clear I. apply Rabs_le. unfold zline in J. repeat (apply in_app_or in J; destruct J as [J|J]).
  - apply linspace_in in J; lra.
  - apply in_map_iff in J. destruct J as (t & <- & J). apply in_rev, in_map_iff in J.
    destruct J as (s & <- & J). apply linspace_in in J; [|lra]. pose proof (cos01 s ltac:(lra)). nra.
  - apply in_map_iff in J. destruct J as (s & <- & J). apply linspace_in in J; [|lra].
    pose proof (cos01 s ltac:(lra)). nra.
  - apply linspace_in in J; lra.
Qed.

(** Spanwise places: with a length below 1 they are the wing's own strips
    within that part of the span, all of them and no other; with a length of
    at least 1.01 all the wing's strips, and points outside up to the length. *)
Theorem C216_span span H L hf xp Nzo Nzf Nyo ypts y :
  0 <= span ->
  let g := wake_grid span H L hf xp Nzo Nzf Nyo ypts in
  let right := firstn (List.length ypts / 2) ypts in
  (L < 1 -> (In y (g_yline g) <-> (In y right /\ y < L * (span / 2)) \/ (In (- y) right /\ - y < L * (span / 2)))) /\
  (101 / 100 <= L -> (forall v, In v right -> In v (g_yline g) /\ In (- v) (g_yline g)) /\
     (In y (g_yline g) -> In y right \/ In (- y) right \/ 101 / 100 * (span / 2) <= Rabs y <= L * (span / 2))).
Proof.
  intros Sp g right. unfold g, right. cbn. unfold yline. cbv zeta. split; intro HL.
  - unfold semispan. cbv zeta. rewrite (proj2 (Rltb_true L 1) HL).
    rewrite in_app_iff, <- in_rev, in_map_iff. split.
    + intros [(v & E & I)|I]; apply filter_In in I; destruct I as [I J]; apply Rltb_true in J.
      * right. subst y. rewrite Ropp_involutive. auto.
      * left; auto.
    + intros [[I J]|[I J]].
      * right. apply filter_In. split; [exact I|]. apply Rltb_true; exact J.
      * left. exists (- y). split; [apply Ropp_involutive|]. apply filter_In. split; [exact I|].
        apply Rltb_true; exact J.
  - unfold semispan. cbv zeta. assert (F : Rltb L 1 = false) by (apply Rltb_false; lra). rewrite F.
    assert (O : forall v, In v (map (fun v => v * (span / 2)) (linspace (101 / 100) L (Nyo / 2))) ->
       101 / 100 * (span / 2) <= v <= L * (span / 2)).
    { intros v I. apply in_map_iff in I. destruct I as (s & <- & I). apply linspace_in in I; [|lra]. nra. }
    split.
    + intros v I. rewrite !in_app_iff, <- !in_rev, !in_map_iff. split; [right; left; exact I|].
      left. exists v. split; [reflexivity|]. apply in_or_app. left; exact I.
    + rewrite in_app_iff, <- in_rev, in_map_iff. intros [(v & <- & I)|I]; apply in_app_or in I; destruct I as [I|I].
      * right; left. rewrite Ropp_involutive. exact I.
      * right; right. apply O in I. rewrite Rabs_Ropp, Rabs_right; [exact I|nra].
      * left; exact I.
      * right; right. apply O in I. rewrite Rabs_right; [exact I|nra].
Qed.

(** A length of exactly the span puts points outside it: for L = 1 the first of
    the outer points is 1% beyond the wing tip (57). *)
Theorem C216_length_refuted span H hf xp Nzo Nzf Nyo ypts :
  0 < span -> (2 <= Nyo)%nat ->
  exists y, In y (g_yline (wake_grid span H 1 hf xp Nzo Nzf Nyo ypts)) /\ 1 * (span / 2) < Rabs y.
Proof.
  intros Sp N. exists (101 / 100 * (span / 2)). split.
  - cbn. unfold yline, semispan. cbv zeta. assert (F : Rltb 1 1 = false) by (apply Rltb_false; lra). rewrite F.
    apply in_or_app. right. apply in_or_app. right. apply in_map_iff. exists (101 / 100). split; [reflexivity|].
    assert (D : (1 <= Nyo / 2)%nat) by (apply Nat.div_le_lower_bound; lia).
    unfold linspace. apply in_map_iff. exists 0%nat. split; [|apply in_seq; lia].
    destruct (Nat.eqb _ 1); [reflexivity|]. cbn. ring.
  - rewrite Rabs_right; lra.
Qed.

Example C216_case :
  let g := wake_grid 10 1 (1 / 2) (1 / 2) 3 4 5 4 [1; 4; -1; -4] in
  g_yline g = [-1; 1] /\ List.length (g_y g) = 28%nat /\ 0 <= 1 / 2 <= 1 * (10 / 2).
Proof.
  cbn. unfold yline, semispan. cbn -[Rltb].
  assert (A : Rltb (1 / 2) 1 = true) by (apply Rltb_true; lra).
  assert (B : Rltb 1 (1 / 2 * (10 / 2)) = true) by (apply Rltb_true; lra).
  assert (C : Rltb 4 (1 / 2 * (10 / 2)) = false) by (apply Rltb_false; lra).
  rewrite A, B, C. cbn. repeat split; try lra.
Qed.

(** * C217 *)
Lemma linspace_nth a b n i : (2 <= n)%nat -> (i < n)%nat ->
  nth_error (linspace a b n) i = Some (a + INR i * ((b - a) / INR (n - 1))).
Proof.
  intros N I. unfold linspace.
  assert (E : nth_error (seq 0 n) i = Some i).
  { rewrite (nth_error_nth' _ 0%nat) by (rewrite seq_length; exact I). now rewrite seq_nth. }
  erewrite map_nth_error; [|exact E]. destruct (Nat.eqb_spec n 1); [lia|reflexivity].
Qed.

(** Radial grid: every point lies in the disc of the other propeller, between
    the hub and 99% of the radius from its axis. *)
Theorem C217_radial a b more R0 Na Rh Nr pts p :
  0 <= Rh <= 99 / 100 * R0 ->
  prop_grid (a :: b :: more) R0 Na (Radial Rh Nr) = Ok pts ->
  List.length pts = (Na * Nr)%nat /\
  (In p pts ->
   Rh <= sqrt ((fst p - (fst b - fst a)) ^ 2 + (snd p - (snd b - snd a)) ^ 2) <= 99 / 100 * R0).
Proof.
  intros B E. cbn in E. injection E as <-. split.
  - rewrite map_length. unfold radial_mesh.
    assert (L : List.length (firstn Na (linspace 0 (2 * PI) (Na + 1))) = Na).
    { rewrite firstn_length, linspace_length. lia. }
    set (l0 := firstn Na (linspace 0 (2 * PI) (Na + 1))) in *. rewrite <- L. clear L. clearbody l0. revert l0. intro l.
    induction l as [|x t IH]; [reflexivity|]. cbn. rewrite app_length, map_length, linspace_length, IH. reflexivity.
  - intro I. apply in_map_iff in I. destruct I as (q & <- & I). cbn [fst snd].
    unfold radial_mesh in I. apply in_flat_map in I. destruct I as (psi & _ & I).
    apply in_map_iff in I. destruct I as (r & <- & I). apply linspace_in in I; [|lra]. cbn [fst snd].
    assert (S2 : (r * cos psi + (fst b - fst a) - (fst b - fst a)) ^ 2 +
                 (r * sin psi + (snd b - snd a) - (snd b - snd a)) ^ 2 = r ^ 2).
    { pose proof (sin2_cos2 psi) as T. unfold Rsqr in T. nra. }
    rewrite S2, sqrt_pow2 by lra. exact I.
Qed.

(** The radial grid's rows are equally spaced around the disc, the full turn
    not being repeated: point i·Nr+j is at angle 2π·i/Na. *)
Theorem C217_angles a b more R0 Na Rh Nr pts i j r :
  prop_grid (a :: b :: more) R0 Na (Radial Rh Nr) = Ok pts ->
  (i < Na)%nat -> nth_error (linspace Rh (99 / 100 * R0) Nr) j = Some r ->
  let psi := 2 * PI * INR i / INR Na in
  nth_error pts (i * Nr + j) =
  Some (r * cos psi + (fst b - fst a), r * sin psi + (snd b - snd a)) /\ 0 <= psi < 2 * PI.
Proof.
  intros E Hi Hr psi. cbn in E. injection E as <-.
  assert (Na0 : 0 < INR Na) by (apply lt_0_INR; lia). pose proof PI_RGT_0.
  assert (Hj : (j < Nr)%nat).
  { rewrite <- (linspace_length Rh (99 / 100 * R0) Nr). apply nth_error_Some. congruence. }
  split.
  - assert (P : nth_error (firstn Na (linspace 0 (2 * PI) (Na + 1))) i = Some psi).
    { assert (F : nth_error (firstn Na (linspace 0 (2 * PI) (Na + 1))) i = nth_error (linspace 0 (2 * PI) (Na + 1)) i).
      { rewrite <- (firstn_skipn Na (linspace 0 (2 * PI) (Na + 1))) at 2.
        rewrite nth_error_app1; [reflexivity|]. rewrite firstn_length, linspace_length. lia. }
      rewrite F, linspace_nth by lia. replace (Na + 1 - 1)%nat with Na by lia. f_equal. unfold psi. field. lra. }
    erewrite map_nth_error with (f := fun p : R * R => (fst p + (fst b - fst a), snd p + (snd b - snd a)))
      (d := (r * cos psi, r * sin psi)); [reflexivity|].
    unfold radial_mesh. clear Hi. clearbody psi. revert i P.
    generalize (firstn Na (linspace 0 (2 * PI) (Na + 1))). intro l.
    induction l as [|x t IH]; intros i P; [destruct i; discriminate|]. destruct i as [|i]; cbn in *.
    + injection P as ->. rewrite nth_error_app1 by (rewrite map_length, linspace_length; exact Hj).
      erewrite map_nth_error; [reflexivity|exact Hr].
    + rewrite nth_error_app2 by (rewrite map_length, linspace_length; lia).
      rewrite map_length, linspace_length. replace (Nr + i * Nr + j - Nr)%nat with (i * Nr + j)%nat by lia.
      apply IH. exact P.
  - assert (0 <= INR i) by apply pos_INR. assert (INR i < INR Na) by (apply lt_INR; exact Hi).
    assert (F : psi = 2 * PI * (INR i / INR Na)) by (unfold psi; field; lra).
    assert (0 <= INR i / INR Na < 1).
    { split; [apply Rmult_le_pos; [lra|left; apply Rinv_0_lt_compat; lra]|].
      apply Rmult_lt_reg_r with (INR Na); [lra|]. field_simplify; lra. }
    rewrite F. nra.
Qed.

(** Cartesian grid: exactly the points of the square mesh that lie inside the
    disc of the other propeller. *)
Theorem C217_cartesian a b more R0 Na Ny Nz pts y z :
  prop_grid (a :: b :: more) R0 Na (Cartesian Ny Nz) = Ok pts ->
  (In (y + (fst b - fst a), z + (snd b - snd a)) pts <->
   In y (linspace (- R0) R0 Ny) /\ In z (linspace (- R0) R0 Nz) /\ sqrt (y ^ 2 + z ^ 2) < R0).
Proof.
  intro E. cbn in E. injection E as <-. rewrite in_map_iff. split.
  - intros ((p & q) & X & I). cbn in X. injection X as X1 X2.
    assert (p = y) by lra. assert (q = z) by lra. subst. clear X1 X2.
    unfold cart_mesh in I. apply filter_In in I. destruct I as [I J]. cbn [fst snd] in J. apply Rltb_true in J.
    apply in_flat_map in I. destruct I as (v & I1 & I2). apply in_map_iff in I2.
    destruct I2 as (u & X & I2). injection X as -> ->. auto.
  - intros (I1 & I2 & J). exists (y, z). split; [reflexivity|]. apply filter_In. split.
    + apply in_flat_map. exists y. split; [exact I1|]. apply in_map_iff. eauto.
    + apply Rltb_true. exact J.
Qed.

(** One propeller only, or another kind of grid: the call fails. *)
Theorem C217_fails R0 Na :
  (forall m, prop_grid [] R0 Na m = Err IndexError) /\
  (forall a m, prop_grid [a] R0 Na m = Err IndexError) /\
  (forall a b more, prop_grid (a :: b :: more) R0 Na Other = Err UnboundLocalError).
Proof. repeat split; intros; reflexivity. Qed.

Example C217_case :
  exists pts, prop_grid [(0, 0); (3, 1)] 2 4 (Radial (1 / 2) 3) = Ok pts /\ List.length pts = 12%nat
  /\ 0 <= 1 / 2 <= 99 / 100 * 2.
Proof. eexists. split; [reflexivity|]. split; [reflexivity|lra]. Qed.

(** * C218 *)
Lemma theta_pos V nu xdev : 0 < xdev -> 0 < theta_turb V nu xdev.
Proof.
  intro H. unfold theta_turb. apply Rmult_lt_0_compat; [lra|]. apply Rinv_0_lt_compat. unfold Rpower. apply exp_pos.
Qed.
Lemma ln2_pos : 0 < ln 2.
Proof. rewrite <- ln_1. apply ln_increasing; lra. Qed.

(** Where it is taken off: nowhere without the option, ahead of the wing's
    leading edge, or outside its span. *)
Theorem C218_outside viscous span croot ctip x0 V nu x y z :
  viscous = false \/ x < x0 \/ 1 / 2 * span <= Rabs y ->
  deficit viscous span croot ctip x0 V nu x y z = Some 0.
Proof.
  intro H. unfold deficit. destruct viscous; [|reflexivity]. cbn [andb].
  destruct (Rltb x x0) eqn:A; [reflexivity|]. cbn [negb]. apply Rltb_false in A.
  destruct (Rltb (Rabs y) (1 / 2 * span)) eqn:B; [|reflexivity]. apply Rltb_true in B.
  destruct H as [H|[H|H]]; [discriminate|lra|lra].
Qed.

Lemma deficit_value span croot ctip x0 V nu x y z :
  Rabs y < 1 / 2 * span -> x0 < x -> chord_at span croot ctip y < x - x0 ->
  let th := theta_turb V nu (x - x0) in
  let xt := x_theta th (x - x0) (chord_at span croot ctip y) in
  0 < th /\ 0 < xt /\
  deficit true span croot ctip x0 V nu x y z = Some (bell (peak V xt) (width th xt) z).
Proof.
  intros Y X C th xt. assert (T : 0 < th) by (apply theta_pos; lra).
  assert (XT : 0 < xt) by (unfold xt, x_theta; apply Rmult_lt_0_compat; [lra|apply Rinv_0_lt_compat; exact T]).
  split; [exact T|]. split; [exact XT|]. unfold deficit. cbn [andb].
  assert (A : Rltb x x0 = false) by (apply Rltb_false; lra). rewrite A. cbn [negb].
  rewrite (proj2 (Rltb_true _ _) Y). cbv zeta. fold th xt.
  assert (D : Rltb 0 (x - x0) = true) by (apply Rltb_true; lra). rewrite D.
  rewrite (proj2 (Rltb_true _ _) XT). reflexivity.
Qed.

Lemma bell_le w0 b z : 0 < w0 -> 0 < bell w0 b z <= w0.
Proof.
  intro H. unfold bell. pose proof (exp_pos (-4 * ln 2 * (Rabs z / b) ^ 2)) as E.
  assert (exp (-4 * ln 2 * (Rabs z / b) ^ 2) <= 1).
  { rewrite <- exp_0. pose proof ln2_pos. pose proof (pow2_ge_0 (Rabs z / b)).
    destruct (Req_dec (-4 * ln 2 * (Rabs z / b) ^ 2) 0) as [->|N]; [lra|]. left. apply exp_increasing. nra. }
  split; [apply Rmult_lt_0_compat; assumption|nra].
Qed.

(** Behind the trailing edge, within the span: the deficit is positive, the
    same above and below and on either side, largest in the plane of the wing,
    and half of that at half the wake's width from it.  The product of the
    largest deficit and the width is 4·V·θ·sqrt(ln 2/π) whatever the distance
    behind the wing: the wake spreads as it fades. *)
Theorem C218_wake span croot ctip x0 V nu x y z :
  0 < V -> Rabs y < 1 / 2 * span -> x0 < x -> chord_at span croot ctip y < x - x0 ->
  let th := theta_turb V nu (x - x0) in
  exists d top b,
    deficit true span croot ctip x0 V nu x y z = Some d /\
    deficit true span croot ctip x0 V nu x y 0 = Some top /\
    deficit true span croot ctip x0 V nu x y (b / 2) = Some (top / 2) /\
    deficit true span croot ctip x0 V nu x (- y) (- z) = Some d /\
    0 < d <= top /\ 0 < b /\ top * b = 4 * V * th * sqrt (ln 2 / PI).
Proof.
  intros HV Y X C th.
  pose proof (deficit_value span croot ctip x0 V nu x y z Y X C) as (T & XT & D1). fold th in T, XT, D1.
  pose proof (deficit_value span croot ctip x0 V nu x y 0 Y X C) as (_ & _ & D2). fold th in D2.
  set (xt := x_theta th (x - x0) (chord_at span croot ctip y)) in *.
  pose proof (deficit_value span croot ctip x0 V nu x y (width th xt / 2) Y X C) as (_ & _ & D3). fold th in D3. fold xt in D3.
  assert (Y' : Rabs (- y) < 1 / 2 * span) by (rewrite Rabs_Ropp; exact Y).
  assert (C' : chord_at span croot ctip (- y) = chord_at span croot ctip y) by (unfold chord_at; now rewrite Rabs_Ropp).
  assert (C2 : chord_at span croot ctip (- y) < x - x0) by (rewrite C'; exact C).
  pose proof (deficit_value span croot ctip x0 V nu x (- y) (- z) Y' X C2) as (_ & _ & D4). fold th in D4.
  rewrite C' in D4. fold xt in D4.
  clearbody xt th. pose proof ln2_pos as L2. pose proof PI_RGT_0 as P.
  assert (Q1 : 0 < 4 * PI * (32 / 1000) * xt) by (assert (0 < PI * xt) by (apply Rmult_lt_0_compat; lra); lra).
  assert (Q2 : 0 < 16 * (32 / 1000) * ln 2 * xt) by (assert (0 < ln 2 * xt) by (apply Rmult_lt_0_compat; lra); lra).
  assert (S1 : 0 < sqrt (4 * PI * (32 / 1000) * xt)) by (apply sqrt_lt_R0; exact Q1).
  assert (S2 : 0 < sqrt (16 * (32 / 1000) * ln 2 * xt)) by (apply sqrt_lt_R0; exact Q2).
  assert (W : 0 < peak V xt) by (unfold peak; apply Rmult_lt_0_compat; [lra|apply Rinv_0_lt_compat; exact S1]).
  assert (B : 0 < width th xt) by (unfold width; apply Rmult_lt_0_compat; lra).
  assert (Z : bell (peak V xt) (width th xt) 0 = peak V xt).
  { unfold bell. rewrite Rabs_R0. replace (-4 * ln 2 * (0 / width th xt) ^ 2) with 0 by (field; lra).
    rewrite exp_0. ring. }
  exists (bell (peak V xt) (width th xt) z), (peak V xt), (width th xt).
  split; [exact D1|]. split; [rewrite D2, Z; reflexivity|]. split; [|split; [|split; [|split; [exact B|]]]].
  - rewrite D3. f_equal. unfold bell. rewrite Rabs_right by lra.
    replace (-4 * ln 2 * (width th xt / 2 / width th xt) ^ 2) with (- ln 2) by (field; lra).
    rewrite exp_Ropp, exp_ln by lra. field.
  - rewrite D4. unfold bell. now rewrite Rabs_Ropp.
  - apply bell_le. exact W.
  - unfold peak, width.
    assert (R : sqrt (16 * (32 / 1000) * ln 2 * xt) = 2 * sqrt (ln 2 / PI) * sqrt (4 * PI * (32 / 1000) * xt)).
    { assert (0 < ln 2 / PI) by (apply Rmult_lt_0_compat; [lra|apply Rinv_0_lt_compat; lra]).
      replace 2 with (sqrt 4) at 2.
      2:{ replace 4 with (2 ^ 2) by ring. apply sqrt_pow2. lra. }
      rewrite <- sqrt_mult by lra. rewrite <- sqrt_mult by lra. f_equal. field. lra. }
    rewrite R. field. lra.
Qed.

(** Over the wing itself, from its leading to its trailing edge, the velocity
    is nan: the test (102) is against the leading edge, the formula needs the
    trailing edge. *)
Theorem C218_chord_refuted span croot ctip x0 V nu x y z u :
  Rabs y < 1 / 2 * span -> x0 <= x -> x - x0 <= chord_at span croot ctip y ->
  u_wake u V (deficit true span croot ctip x0 V nu x y z) = None.
Proof.
  intros Y X C. unfold deficit. cbn [andb].
  assert (A : Rltb x x0 = false) by (apply Rltb_false; lra). rewrite A. cbn [negb].
  rewrite (proj2 (Rltb_true _ _) Y). cbv zeta.
  destruct (Rltb 0 (x - x0)) eqn:D; [|reflexivity]. apply Rltb_true in D. cbn [andb].
  assert (XT : Rltb 0 (x_theta (theta_turb V nu (x - x0)) (x - x0) (chord_at span croot ctip y)) = false).
  { apply Rltb_false. unfold x_theta. pose proof (theta_pos V nu _ D) as T. apply Rinv_0_lt_compat in T.
    unfold Rdiv. nra. }
  rewrite XT. reflexivity.
Qed.

(** The streamwise velocity is slowed by the deficit over the speed. *)
Theorem C218_velocity span croot ctip x0 V nu x y z u :
  0 < V -> Rabs y < 1 / 2 * span -> x0 < x -> chord_at span croot ctip y < x - x0 ->
  exists d w, deficit true span croot ctip x0 V nu x y z = Some d /\
    u_wake u V (deficit true span croot ctip x0 V nu x y z) = Some w /\ V * w = V * u - d /\ w < u.
Proof.
  intros HV Y X C. destruct (C218_wake span croot ctip x0 V nu x y z HV Y X C) as (d & top & b & E & _ & _ & _ & B & _).
  exists d, (u - d / V). rewrite E. split; [reflexivity|]. split; [reflexivity|]. split; [field; lra|].
  assert (0 < d / V) by (apply Rmult_lt_0_compat; [lra|apply Rinv_0_lt_compat; lra]). lra.
Qed.

(** The chord used falls evenly from the root to the tips. *)
Theorem C218_taper span croot ctip y : 0 < span ->
  chord_at span croot ctip 0 = croot /\ chord_at span croot ctip (span / 2) = ctip /\
  chord_at span croot ctip (- (span / 2)) = ctip /\
  chord_at span croot ctip y = croot + (ctip - croot) * (2 * Rabs y / span).
Proof.
  intro S. unfold chord_at. rewrite Rabs_Ropp, Rabs_R0, (Rabs_right (span / 2)) by lra.
  repeat split; field; lra.
Qed.

(** The momentum thickness is that of a turbulent plate: its fifth power times
    the Reynolds number of the distance from the leading edge is the fifth
    power of 0.036 times that distance. *)
Theorem C218_thickness V nu xdev : 0 < V -> 0 < nu -> 0 < xdev ->
  theta_turb V nu xdev ^ 5 * (V * xdev / nu) = (36 / 1000 * xdev) ^ 5.
Proof.
  intros HV HN HX. unfold theta_turb.
  assert (P : 0 < V * xdev / nu).
  { apply Rmult_lt_0_compat; [apply Rmult_lt_0_compat; lra|apply Rinv_0_lt_compat; lra]. }
  assert (E : Rpower (V * xdev / nu) (1 / 5) ^ 5 = V * xdev / nu).
  { rewrite <- Rpower_pow by (unfold Rpower; apply exp_pos). rewrite Rpower_mult.
    replace (1 / 5 * INR 5) with 1 by (cbn; field). apply Rpower_1. exact P. }
  assert (Q : 0 < Rpower (V * xdev / nu) (1 / 5)) by (unfold Rpower; apply exp_pos).
  rewrite <- E at 2. generalize dependent (Rpower (V * xdev / nu) (1 / 5)). intros u _ U. field. lra.
Qed.

Example C218_case :
  Rabs 1 < 1 / 2 * 10 /\ 2 < 5 /\ chord_at 10 2 1 1 < 5 - 2 /\ 2 <= 3 /\ 3 - 2 <= chord_at 10 2 1 1.
Proof. unfold chord_at. rewrite Rabs_R1. lra. Qed.

Print Assumptions C216_product.
Print Assumptions C216_mirror.
Print Assumptions C216_height.
Print Assumptions C216_span.
Print Assumptions C216_length_refuted.
Print Assumptions C217_radial.
Print Assumptions C217_angles.
Print Assumptions C217_cartesian.
Print Assumptions C217_fails.
Print Assumptions C218_outside.
Print Assumptions C218_wake.
Print Assumptions C218_chord_refuted.
Print Assumptions C218_velocity.
Print Assumptions C218_taper.
Print Assumptions C218_thickness.
