(** * Wings as panels: theorems *)
From Coq Require Import Reals List Bool Arith ZArith Lra Psatz Lia Sorted.
From Verif Require Import PyBase M_Opt M_Rot M_Noise M_Evtol M_Vlm M_Field M_Grid S_Vlm S_Rot S_Grid P_Opt P_Noise P_Field P_Rotor P_Vlm P_Vlm2 P_Vlm3 P_Grid P_Grid2 P_Grid3 P_Grid4.
Import ListNotations.
Local Open Scope R_scope.

(** ** C123 *)
Lemma truth_given o : truth o = true <-> given o.
Proof. unfold given. destruct o as [[|k]|]; cbn; split; intro H; try discriminate; try (destruct H; discriminate); eauto. Qed.
Lemma truth_not o : truth o = false <-> ~ given o.
Proof. rewrite <- truth_given. destruct (truth o); split; congruence. Qed.
(** accepted: both numbers for everything and none for wings and fuselages, or the four separate ones and none for everything *)
Theorem C123_accepted : forall s r, discretization s = Ok r <->
  (given (n_sw s) /\ given (n_cw s) /\ ~ given (n_sw_wing s) /\ ~ given (n_cw_wing s) /\ ~ given (n_sw_fuse s) /\ ~ given (n_cw_fuse s) /\
   r = (n_sw s, n_cw s, n_sw s, n_cw s)) \/
  (~ given (n_sw s) /\ ~ given (n_cw s) /\ given (n_sw_wing s) /\ given (n_cw_wing s) /\ given (n_sw_fuse s) /\ given (n_cw_fuse s) /\
   r = (n_sw_wing s, n_cw_wing s, n_sw_fuse s, n_cw_fuse s)).
Proof.
  intros s r. rewrite <- !truth_given. unfold discretization.
  destruct (truth (n_sw s)), (truth (n_cw s)), (truth (n_sw_wing s)), (truth (n_cw_wing s)), (truth (n_sw_fuse s)), (truth (n_cw_fuse s)); cbn;
  (split; [intro H; inversion H; subst; clear H; intuition congruence|intros [(A & B & C & D & E & F & ->)|(A & B & C & D & E & F & ->)]; congruence || reflexivity]).
Qed.
Theorem C123_refused : forall s, (forall r, discretization s <> Ok r) -> discretization s = Err GenericException.
Proof.
  intros s H. unfold discretization in *. repeat match goal with |- context [if ?b then _ else _] => destruct b end; try reflexivity; exfalso; eapply H; reflexivity.
Qed.
Example C123_case :
  discretization {| n_sw := Some 20%nat; n_cw := Some 5%nat; n_sw_wing := None; n_cw_wing := None; n_sw_fuse := Some 0%nat; n_cw_fuse := None |}
    = Ok (Some 20%nat, Some 5%nat, Some 20%nat, Some 5%nat) /\
  discretization {| n_sw := Some 20%nat; n_cw := Some 5%nat; n_sw_wing := Some 3%nat; n_cw_wing := Some 3%nat; n_sw_fuse := None; n_cw_fuse := None |} = Err GenericException.
Proof. split; reflexivity. Qed.

(** ** C124 *)
Theorem C124_stations : forall cosine span n, 0 < span -> (0 < n)%nat -> let ys := stations cosine span n in
  length ys = S n /\ ascending ys /\ nth 0 ys 0 = 0 /\ nth n ys 0 = span /\
  forall i, (i <= n)%nat -> nth i ys 0 = if cosine then span * sin (INR i / INR n * (PI / 2)) else span * (INR i / INR n).
Proof.
  intros cosine span n SP N ys. unfold ys. assert (NN : 0 < INR n) by (apply lt_0_INR; lia).
  split; [apply stations_length|]. split; [apply stations_ascending; assumption|]. split; [|split]; [| |intros; apply stations_nth; assumption].
  - rewrite stations_nth by lia. cbn [INR]. destruct cosine; [replace (0 / INR n * (PI / 2)) with 0 by (field; lra); rewrite sin_0|]; [ring|field; lra].
  - rewrite stations_nth by lia. destruct cosine; [replace (INR n / INR n * (PI / 2)) with (PI / 2) by (field; lra); rewrite sin_PI2; ring|field; lra].
Qed.
Lemma stations_range cosine span n v : 0 < span -> (0 < n)%nat -> In v (stations cosine span n) -> 0 <= v <= span.
Proof.
  intros SP N I. destruct (C124_stations cosine span n SP N) as (L & A & Z & E & _). cbv zeta in *. destruct (In_nth _ _ 0 I) as (i & Hi & <-). split.
  - destruct i; [lra|]. pose proof (A 0%nat (S i) ltac:(lia)). lra.
  - rewrite L in Hi. destruct (Nat.eq_dec i n) as [->|NE]; [lra|]. pose proof (A i n ltac:(lia)). lra.
Qed.
(** stations are moved onto every section: none is lost, none is doubled, and the ends stay *)
Theorem C124_sections_kept : forall cosine span n req, 0 < span -> (0 < n)%nat -> ascending req -> (length req <= S n)%nat -> (0 < length req)%nat ->
  hd 0 req = 0 -> last req 0 = span ->
  exists ys, spanwise (length req) (stations cosine span n) req = Ok ys /\ ascending ys /\ length ys = S n /\
    (forall v, In v req -> In v ys) /\ (forall v, In v ys -> In v req \/ In v (stations cosine span n)) /\
    hd 0 ys = 0 /\ last ys 0 = span /\ (length req = S n -> ys = req).
Proof.
  intros cosine span n req SP N A L L0 Z E. destruct (C124_stations cosine span n SP N) as (SL & SA & _ & _). cbv zeta in *.
  destruct (spanwise_spec (length req) (stations cosine span n) req (ascending_nodup _ SA) (ascending_nodup _ A)) as (ys & H1 & H2 & H3 & H4 & H5 & H6); [lia|lia|].
  rewrite SL in H3. exists ys. split; [exact H1|]. split; [exact H2|]. split; [exact H3|]. split; [exact H4|]. split; [exact H5|].
  assert (RQ : forall v, In v req -> 0 <= v <= span).
  { intros v I. destruct (In_nth _ _ 0 I) as (i & Hi & <-). rewrite hd_nth in Z. rewrite last_nth in E. split.
    - destruct i; [lra|]. pose proof (A 0%nat (S i) ltac:(lia)). lra.
    - destruct (Nat.eq_dec i (length req - 1)) as [->|NE]; [lra|]. pose proof (A i (length req - 1)%nat ltac:(lia)). lra. }
  assert (RG : forall v, In v ys -> 0 <= v <= span) by (intros v I; destruct (H5 v I) as [J|J]; [apply RQ; exact J|apply (stations_range cosine span n v SP N J)]).
  assert (I0 : In 0 ys) by (apply H4; rewrite <- Z, hd_nth; apply nth_In; lia).
  assert (I1 : In span ys) by (apply H4; rewrite <- E, last_nth; apply nth_In; lia).
  split; [|split].
  - rewrite hd_nth. destruct (In_nth _ _ 0 I0) as (i & Hi & Ei). destruct i; [exact Ei|]. pose proof (H2 0%nat (S i) ltac:(lia)). pose proof (RG (nth 0 ys 0) ltac:(apply nth_In; lia)). lra.
  - rewrite last_nth. destruct (In_nth _ _ 0 I1) as (i & Hi & Ei). destruct (Nat.eq_dec i (length ys - 1)) as [<-|NE]; [exact Ei|].
    pose proof (H2 i (length ys - 1)%nat ltac:(lia)). pose proof (RG (nth (length ys - 1) ys 0) ltac:(apply nth_In; lia)). lra.
  - intro LQ. apply same_elements; [assumption|assumption|]. intro v. split; [apply H6; rewrite SL; exact LQ|apply H4].
Qed.
(** with fewer stations than sections it is refused *)
Theorem C124_too_few : forall cosine span n req, (S n < length req)%nat -> spanwise (length req) (stations cosine span n) req = Err ValueError.
Proof. intros cosine span n req H. unfold spanwise. rewrite stations_length. replace (Nat.ltb (S n) (length req)) with true by (symmetry; apply Nat.ltb_lt; lia). reflexivity. Qed.
(** a control surface has the stations of the wing it is on: one strip between each pair, whatever the numbers asked for *)
Theorem C124_surface_lines_up : forall cosine req n, (1 < length req)%nat -> ascending req -> hd 0 req = 0 ->
  strips_of (Some req) n = (length req - 1)%nat /\ spanwise (length req) (stations cosine (last req 0) (strips_of (Some req) n)) req = Ok req.
Proof.
  intros cosine req n L A Z. assert (E : strips_of (Some req) n = (length req - 1)%nat) by (unfold strips_of; lia). split; [exact E|]. rewrite E.
  assert (P : 0 < last req 0) by (rewrite hd_nth in Z; rewrite last_nth; pose proof (A 0%nat (length req - 1)%nat ltac:(lia)); lra).
  destruct (C124_sections_kept cosine (last req 0) (length req - 1) req P ltac:(lia) A ltac:(lia) ltac:(lia) Z eq_refl) as (ys & H & _ & _ & _ & _ & _ & _ & Q).
  rewrite H, Q by lia. reflexivity.
Qed.
(** it has at least two panels along the chord, and no fewer than its share of the wing's *)
Theorem C124_surface_rows : forall f n, (2 <= rows_of (Some f) n)%Z /\ f * INR n <= IZR (rows_of (Some f) n) /\ ((2 < rows_of (Some f) n)%Z -> IZR (rows_of (Some f) n) < f * INR n + 1).
Proof.
  intros f n. unfold rows_of. destruct (archimed (- (f * INR n))) as [H1 H2]. set (z := up (- (f * INR n))) in *.
  assert (M : IZR (- (z - 1)) = 1 - IZR z) by (rewrite opp_IZR, minus_IZR; ring). split; [lia|]. split.
  - apply Rle_trans with (IZR (- (z - 1))); [rewrite M; lra|]. apply IZR_le. lia.
  - intro G. rewrite Z.max_l by lia. rewrite M. lra.
Qed.
Example C124_case : exists ys, spanwise 3 (stations false 10 4) [0; 4; 10] = Ok ys /\ length ys = 5%nat /\ In 4 ys /\ last ys 0 = 10.
Proof.
  destruct (C124_sections_kept false 10 4 [0; 4; 10]) as (ys & H & _ & L & K & _ & _ & E & _); try (cbn; lra || lia).
  { apply ascending_iff. repeat constructor; lra. }
  exists ys. split; [exact H|]. split; [exact L|]. split; [apply K; cbn; auto|exact E].
Qed.

(** ** C125 *)
(** every strip lies between one section and the next, and the strips follow each other from root to tip *)
Theorem C125_strips : forall cosine span n req, 0 < span -> (0 < n)%nat -> ascending req -> (length req <= S n)%nat -> (0 < length req)%nat ->
  hd 0 req = 0 -> last req 0 = span ->
  exists ys st, spanwise (length req) (stations cosine span n) req = Ok ys /\ strips req 0 ys = Ok st /\ length st = n /\
    forall k, (k < n)%nat -> exists a, nth k st (O, 0, 0) = (a, nth k ys 0, nth (S k) ys 0) /\ (S a < length req)%nat /\
      nth a req 0 <= nth k ys 0 < nth (S k) ys 0 /\ nth (S k) ys 0 <= nth (S a) req 0.
Proof.
  intros cosine span n req SP N A L L0 Z E. destruct (C124_sections_kept cosine span n req SP N A L L0 Z E) as (ys & H1 & H2 & H3 & H4 & _ & H5 & H6 & _).
  destruct (strips_ok req ys A H2) as (st & S1 & S2 & S3); [intro Q; rewrite Q in L0; cbn in L0; lia|exact H4|congruence|congruence|].
  exists ys, st. split; [exact H1|]. split; [exact S1|]. rewrite H3 in S2. split; [lia|]. intros k Hk. destruct (S3 k ltac:(lia)) as (a & B1 & B2 & B3 & B4).
  exists a. split; [exact B1|]. split; [exact B2|]. split; [split; [exact B3|apply H2; lia]|exact B4].
Qed.
Example C125_case : exists st, strips [0; 4; 10] 0 [0; 2; 4; 7; 10] = Ok st /\ nth 1 st (O, 0, 0) = (0%nat, 2, 4) /\ nth 2 st (O, 0, 0) = (1%nat, 4, 7).
Proof.
  eexists. split.
  - cbn [strips nth_error]. destruct (Req_EM_T 2 4); [lra|]. cbn [nth_error]. destruct (Req_EM_T 4 4); [|lra]. cbn [nth_error]. destruct (Req_EM_T 7 10); [lra|]. cbn [nth_error bind]. reflexivity.
  - split; reflexivity.
Qed.

(** ** C126 *)
(** panels behind one another, and beside one another in the same part of the wing, share their corners, whatever the camber and twist *)
Theorem C126_neighbours : forall w n a b side ya yb yc k,
  let p := panel_points w n a b side ya yb k in let behind := panel_points w n a b side ya yb (S k) in let beside := panel_points w n a b side yb yc k in
  t_a2 p = t_a1 behind /\ t_b2 p = t_b1 behind /\ t_b1 p = t_a1 beside /\ t_b2 p = t_a2 beside /\ t_bh p = t_ah beside.
Proof. intros. cbn. repeat split. Qed.
(** where two parts meet, when the section is where the part inboard of it ends *)
Theorem C126_across : forall w n a b c side ya yc k, (0 < n)%nat -> s_y b <> s_y a -> uncambered a -> uncambered b ->
  s_x b = s_x a + (s_y b - s_y a) * tan (s_sweep a) -> s_z b = s_z a + (s_y b - s_y a) * tan (s_dihedral a) ->
  (w_vertical w = true -> inverted a = inverted b) -> s_le a = s_le b -> s_te a = s_te b ->
  let p := panel_points w n a b side ya (s_y b) k in let beside := panel_points w n b c side (s_y b) yc k in
  t_b1 p = t_a1 beside /\ t_b2 p = t_a2 beside.
Proof.
  intros w n a b c side ya yc k N Y CA CB X Z I LE TE p beside. unfold p, beside, panel_points. cbn [t_b1 t_b2 t_a1 t_a2]. fold (chord_point w a b side (s_y b)).
  split; [exact (across_section w n a b c side k k Y CA CB X Z I LE TE)|exact (across_section w n a b c side (S k) (S k) Y CA CB X Z I LE TE)].
Qed.
(** the vortex lies at a quarter of the panel and the control points at three quarters, without camber *)
Theorem C126_quarters : forall w n a b side ya yb k, (0 < n)%nat -> uncambered a -> let p := panel_points w n a b side ya yb k in
  t_ah p = part (1 / 4) (t_a1 p) (t_a2 p) /\ t_ac p = part (3 / 4) (t_a1 p) (t_a2 p) /\
  t_bh p = part (1 / 4) (t_b1 p) (t_b2 p) /\ t_bc p = part (3 / 4) (t_b1 p) (t_b2 p).
Proof. exact quarters. Qed.
(** and the control point is in the middle, when the twist does not change along the part *)
Theorem C126_middle : forall w n a b side ya yb k, (0 < n)%nat -> uncambered a -> s_twist a = s_twist b -> s_y b <> s_y a -> (forall f sl, w_cut w = Some (f, sl) -> f <> 0) ->
  let p := panel_points w n a b side ya yb k in t_ch p = part (1 / 2) (t_ah p) (t_bh p) /\ t_c p = part (1 / 2) (t_ac p) (t_bc p).
Proof. exact middle. Qed.
(** panels divide the chord evenly, turned nose up by the twist there, at the place along the span the strip begins *)
Theorem C126_chord : forall w n a b side ya yb k, (0 < n)%nat -> uncambered a -> w_vertical w = false -> let p := panel_points w n a b side ya yb k in
  let t := twist_at a b (ya - s_y a) in let c := chord_at a b (ya - s_y a) * (s_te a - s_le a) / INR n in
  minus (t_a2 p) (t_a1 p) = V3 (c * cos t) 0 (- (c * sin t)) /\ vy (t_a1 p) = side * (ya + vy (w_origin w)) /\ vy (t_b1 p) = side * (yb + vy (w_origin w)).
Proof.
  intros w n a b side ya yb k N U V p t c. split; [apply chord_twist; assumption|]. unfold p, panel_points, placed. cbn [t_a1 t_b1]. rewrite V. unfold vmore. cbn [vx vy vz fst snd]. split; ring.
Qed.
(** between two sections chord and twist vary linearly and reach the values of the sections *)
Theorem C126_linear : forall a b e e' f, s_y b <> s_y a ->
  chord_at a b 0 = s_chord a /\ chord_at a b (s_y b - s_y a) = s_chord b /\ twist_at a b 0 = s_twist a /\ twist_at a b (s_y b - s_y a) = s_twist b /\
  chord_at a b (e + f * (e' - e)) = chord_at a b e + f * (chord_at a b e' - chord_at a b e) /\
  twist_at a b (e + f * (e' - e)) = twist_at a b e + f * (twist_at a b e' - twist_at a b e).
Proof. intros a b e e' f N. unfold chord_at, twist_at. assert (s_y b - s_y a <> 0) by lra. repeat split; try ring; field; assumption. Qed.
(** the whole wing's leading edge is where the offsets and the sweep say, with no twist *)
Theorem C126_leading_edge : forall w n a b side ya yb, (0 < n)%nat -> w_vertical w = false -> w_cut w = None -> uncambered a -> s_twist a = 0 -> s_twist b = 0 -> s_le a = 0 -> s_y b <> s_y a ->
  t_a1 (panel_points w n a b side ya yb 0) =
  V3 (vx (w_origin w) + s_x a + (ya - s_y a) * tan (s_sweep a)) (side * (ya + vy (w_origin w))) (vz (w_origin w) + s_z a + (ya - s_y a) * tan (s_dihedral a)).
Proof.
  intros w n a b side ya yb N V C U T1 T2 L Y. unfold panel_points. cbn [t_a1]. unfold placed, twisted. cbv zeta. rewrite V. unfold vmore. cbn [vx vy vz fst snd].
  assert (T : twist_at a b (ya - s_y a) = 0) by (unfold twist_at; rewrite T1, T2; field; lra). rewrite T. unfold turned_x, turned_z. rewrite cos_0, sin_0. unfold flat_x, flat_z, pivot_x, pivot_z.
  rewrite C, camber_flat by exact U. unfold edge. rewrite L. cbn [INR]. unfold Rdiv. rewrite Rmult_0_l. f_equal; ring.
Qed.
(** with camber, the ends of the line of control points take their height from other places of the panel: turned by the twist, they are off the line through the middle *)
Definition bent : station := {| s_y := 0; s_chord := 1; s_twist := PI / 2; s_x := 0; s_z := 0; s_dihedral := 0; s_sweep := 0; s_camber := [(0, 0); (1 / 2, 1 / 10); (1, 0)]; s_le := 0; s_te := 1 |}.
Definition bent_tip : station := {| s_y := 1; s_chord := 1; s_twist := PI / 2; s_x := 0; s_z := 0; s_dihedral := 0; s_sweep := 0; s_camber := [(0, 0); (1 / 2, 1 / 10); (1, 0)]; s_le := 0; s_te := 1 |}.
Definition simple : surface := {| w_origin := V3 0 0 0; w_vertical := false; w_symmetric := true; w_cut := None |}.
Theorem C126_control_line_refuted : let p := panel_points simple 1 bent bent_tip 1 0 1 0 in t_ac p <> part 1 (t_c p) (V3 (vx (t_c p)) 0 (vz (t_c p))) /\ vx (t_ac p) <> vx (t_c p).
Proof.
  assert (Q : let p := panel_points simple 1 bent bent_tip 1 0 1 0 in vx (t_ac p) <> vx (t_c p)).
  { unfold panel_points. cbv zeta. cbn [t_ac t_c]. unfold placed. cbn [w_vertical simple w_origin]. unfold vmore. cbn [vx vy vz]. unfold twisted. cbv zeta. cbn [fst].
    assert (T : forall e, twist_at bent bent_tip e = PI / 2) by (intro e; unfold twist_at; cbn; field). rewrite !T. unfold turned_x. rewrite sin_PI2, cos_PI2.
    assert (CH : forall e, chord_at bent bent_tip e = 1) by (intro e; unfold chord_at; cbn; field). rewrite !CH.
    unfold pivot_x, pivot_z, flat_x, flat_z, camber, camber_line. cbn [w_cut simple s_camber bent map fst snd].
    cbn [s_x s_z s_sweep s_dihedral bent]. rewrite tan_0. unfold edge. cbn [s_le s_te bent INR].
    assert (I1 : interp ((0 + (1 - 0) * (1 / 1)) * 1) [(0 * 1, 0 * 1); (1 / 2 * 1, 1 / 10 * 1); (1 * 1, 0 * 1)] = 0).
    { cbn [interp]. destruct (Rltb ((0 + (1 - 0) * (1 / 1)) * 1) (0 * 1)) eqn:E1; [apply Rltb_true in E1; lra|]. destruct (Rltb ((0 + (1 - 0) * (1 / 1)) * 1) (1 / 2 * 1)) eqn:E2; [apply Rltb_true in E2; lra|].
      destruct (Rltb ((0 + (1 - 0) * (1 / 1)) * 1) (1 * 1)) eqn:E3; [apply Rltb_true in E3; lra|]. lra. }
    assert (I2 : interp ((0 + (1 - 0) * (0 / 1)) * 1 + ((0 + (1 - 0) * (1 / 1)) * 1 - (0 + (1 - 0) * (0 / 1)) * 1) / 1 * (75 / 100)) [(0 * 1, 0 * 1); (1 / 2 * 1, 1 / 10 * 1); (1 * 1, 0 * 1)] = 1 / 20).
    { set (x := _ + _). assert (X : x = 3 / 4) by (unfold x; field). rewrite X. cbn [interp]. destruct (Rltb (3 / 4) (0 * 1)) eqn:E1; [apply Rltb_true in E1; lra|]. destruct (Rltb (3 / 4) (1 / 2 * 1)) eqn:E2; [apply Rltb_true in E2; lra|].
      destruct (Rltb (3 / 4) (1 * 1)) eqn:E3; [field|]. apply Rltb_false in E3; lra. }
    rewrite I1, I2. lra. }
  cbv zeta in *. split; [|exact Q]. intro H. apply Q. rewrite H at 1. unfold part, plus, scaled, minus. cbn [vx]. ring.
Qed.

(** ** C127 *)
(** the other side is the mirror image, point by point: left and right, or up and down for a vertical wing *)
Theorem C127_mirrored : forall w n l ys p, side_points w n l ys 1 = Ok p -> side_points w n l ys (-1) = Ok (map (map_points (opposite (w_vertical w))) p).
Proof. intros w n l ys p H. rewrite side_opposite, H. reflexivity. Qed.
(** a vertical wing stands up along z from its origin, down when its dihedral is more than a right angle *)
Theorem C127_upright : forall w n a b ya yb k, w_vertical w = true -> s_dihedral a <> PI / 2 ->
  vz (t_a1 (panel_points w n a b 1 ya yb k)) = vz (w_origin w) + (if Rlt_dec (s_dihedral a) (PI / 2) then ya else - ya).
Proof.
  intros w n a b ya yb k V D. unfold panel_points, placed. cbn [t_a1]. rewrite V. unfold vmore, inverted, sign. cbn [vx vy vz]. destruct (Rlt_dec (s_dihedral a) (PI / 2)) as [L|L].
  - rewrite (proj2 (Rltb_true _ _)) by lra. ring.
  - rewrite (proj2 (Rltb_false (s_dihedral a - PI / 2) 0)) by lra. rewrite (proj2 (Rltb_true 0 _)) by lra. ring.
Qed.
(** but with a dihedral of exactly a right angle it has no height at all *)
Theorem C127_upright_refuted : forall w n a b side ya yb k, w_vertical w = true -> s_dihedral a = PI / 2 ->
  vz (t_b1 (panel_points w n a b side ya yb k)) = vz (t_a1 (panel_points w n a b side ya yb k)) /\ vz (t_b2 (panel_points w n a b side ya yb k)) = vz (t_a2 (panel_points w n a b side ya yb k)).
Proof.
  intros w n a b side ya yb k V D. unfold panel_points, placed. cbn [t_a1 t_b1 t_a2 t_b2]. rewrite V. unfold vmore, inverted, sign. cbn [vx vy vz]. rewrite D.
  rewrite !(proj2 (Rltb_false _ _)) by lra. split; ring.
Qed.

(** ** C128 *)
Lemma concat_length {A} n : forall l : list (list A), Forall (fun x => length x = n) l -> length (concat l) = (length l * n)%nat.
Proof. induction l as [|x l IH]; intro F; [reflexivity|]. inversion F; subst. cbn [concat length Nat.mul]. rewrite app_length, IH by assumption. reflexivity. Qed.
(** the panels of a side cover the wing: their areas add up to its trapezoids', whatever the spacing *)
Theorem C128_area : forall cosine span n rows w l side, 0 < span -> (0 < n)%nat -> (0 < rows)%nat -> w_vertical w = false -> (side = 1 \/ side = -1) ->
  Forall plain l -> ascending (map s_y l) -> (0 < length l <= S n)%nat -> s_y (hd no_station l) = 0 -> last (map s_y l) 0 = span ->
  exists ys p, spanwise (length l) (stations cosine span n) (map s_y l) = Ok ys /\ side_points w rows l ys side = Ok p /\ length p = (n * rows)%nat /\
    total (map (fun q => panel_area (corners q)) p) = surface_area l.
Proof.
  intros cosine span n rows w l side SP N RW V SD P A L Z E.
  assert (HZ : hd 0 (map s_y l) = 0) by (destruct l as [|a l]; [cbn in L; lia|exact Z]).
  destruct (C124_sections_kept cosine span n (map s_y l) SP N A) as (ys & H1 & H2 & H3 & H4 & _ & H5 & H6 & _); [rewrite map_length; lia|rewrite map_length; lia|exact HZ|exact E|].
  rewrite map_length in H1. assert (NL : l <> []) by (intro Q; rewrite Q in L; cbn in L; lia).
  destruct (side_area w rows side l ys RW V SD P A H2 NL) as (p & P1 & P2); [intros a I; apply H4, in_map, I|congruence|congruence|].
  exists ys, p. split; [exact H1|]. split; [exact P1|]. split; [|exact P2].
  destruct (strips_ok (map s_y l) ys A H2) as (st & S1 & S2 & _); [destruct l; [congruence|discriminate]|exact H4|congruence|congruence|].
  unfold side_points in P1. rewrite S1 in P1. cbn [bind] in P1. injection P1 as <-. rewrite (concat_length rows), map_length; [lia|].
  apply Forall_forall. intros x X. apply in_map_iff in X. destruct X as ([[i ya] yb] & <- & _). rewrite map_length, seq_length. reflexivity.
Qed.
(** without dihedral and without control surfaces that is the area of the planform *)
Theorem C128_planform : forall l, Forall (fun a => s_dihedral a = 0 /\ s_le a = 0 /\ s_te a = 1) l -> surface_area l = planform_area l.
Proof.
  induction l as [|a l IH]; intro F; [reflexivity|]. inversion F as [|? ? (D & L & T) G]; subst. destruct l as [|b l]; [reflexivity|].
  change (surface_area (a :: b :: l)) with ((s_chord a + s_chord b) / 2 * (s_te a - s_le a) * ((s_y b - s_y a) / cos (s_dihedral a)) + surface_area (b :: l)).
  change (planform_area (a :: b :: l)) with (5 / 10 * (s_chord a + s_chord b) * (s_y b - s_y a) + planform_area (b :: l)). rewrite (IH G), D, L, T, cos_0. field.
Qed.
Definition flat (y c : R) : station := {| s_y := y; s_chord := c; s_twist := 0; s_x := 0; s_z := 0; s_dihedral := 0; s_sweep := 0; s_camber := []; s_le := 0; s_te := 1 |}.
Example C128_case : exists ys p, spanwise 3 (stations true 10 6) [0; 4; 10] = Ok ys /\ side_points simple 5 [flat 0 3; flat 4 2; flat 10 1] ys (-1) = Ok p /\ length p = 30%nat /\
  total (map (fun q => panel_area (corners q)) p) = 19.
Proof.
  destruct (C128_area true 10 6 5 simple [flat 0 3; flat 4 2; flat 10 1] (-1)) as (ys & p & H1 & H2 & H3 & H4); try (cbn; lra || lia).
  - repeat constructor; cbn; rewrite ?cos_0; lra.
  - apply ascending_iff. cbn. repeat constructor; lra.
  - exists ys, p. split; [exact H1|]. split; [exact H2|]. split; [exact H3|]. rewrite H4. cbn. rewrite cos_0. field.
Qed.

(** ** C129 *)
Theorem C129_lists : forall l, sizes l (all_books l).
Proof. exact books_sizes. Qed.
(** whatever sides come before and after: the strips of a side start at each row of panels, and its panels carry its number and count along their strip *)
Theorem C129_side : forall rest ahead sw cw id, (0 < cw)%nat -> entry ahead sw cw id (all_books (ahead ++ (sw, cw, id) :: rest)).
Proof. exact books_entry. Qed.
Lemma split_same {A} (x y : A * Z) : forall a1 b1 a2 b2, NoDup (map snd (a1 ++ x :: b1)) -> a1 ++ x :: b1 = a2 ++ y :: b2 -> snd x = snd y -> a1 = a2 /\ x = y.
Proof.
  induction a1 as [|u a1 IH]; intros b1 a2 b2 N E S.
  - destruct a2 as [|v a2]; cbn in E; [injection E as E1 E2; split; [reflexivity|exact E1]|]. injection E as E1 E2. subst. cbn in N. inversion N as [|? ? H]; subst. exfalso. apply H.
    rewrite map_app, S. apply in_or_app. right. left. reflexivity.
  - destruct a2 as [|v a2]; cbn in E; injection E as E1 E2; subst.
    + exfalso. cbn in N. inversion N as [|? ? H]; subst. apply H. rewrite map_app, <- S. apply in_or_app. right. left. reflexivity.
    + cbn in N. inversion N; subst. destruct (IH b1 a2 b2) as [-> ->]; auto.
Qed.
(** when the numbers of all sides differ, a side's number picks out exactly its own panels *)
Theorem C129_mask : forall ahead sw cw id rest, let l := ahead ++ (sw, cw, id) :: rest in
  NoDup (map snd l) -> Forall (fun s => (0 < snd (fst s))%nat) l -> forall j, (j < panels_in l)%nat ->
  (nth j (k_id (all_books l)) 0%Z = id <-> (panels_in ahead <= j < panels_in ahead + cw * sw)%nat).
Proof.
  intros ahead sw cw id rest l N F j J. split.
  - intro E. destruct (locate l j J) as (a2 & sw2 & cw2 & id2 & r2 & k & L2 & -> & K).
    assert (C2 : (0 < cw2)%nat) by (rewrite L2 in F; apply Forall_app in F; destruct F as [_ F]; inversion F; assumption).
    destruct (books_entry r2 a2 sw2 cw2 id2 C2) as [_ _ EN]. destruct (EN k K) as [I _]. rewrite <- L2 in I. rewrite I in E.
    destruct (split_same (sw, cw, id) (sw2, cw2, id2) ahead rest a2 r2 N) as [<- Q]; [exact L2|symmetry; exact E|]. injection Q as -> -> _. lia.
  - intros [B1 B2]. assert (C2 : (0 < cw)%nat) by (apply Forall_app in F; destruct F as [_ F]; inversion F; assumption).
    destruct (books_entry rest ahead sw cw id C2) as [_ _ EN]. destruct (EN (j - panels_in ahead)%nat ltac:(lia)) as [I _].
    replace (panels_in ahead + (j - panels_in ahead))%nat with j in I by lia. exact I.
Qed.
(** every panel belongs to one side *)
Theorem C129_every_panel : forall l j, (j < panels_in l)%nat ->
  exists before sw cw id rest k, l = before ++ (sw, cw, id) :: rest /\ j = (panels_in before + k)%nat /\ (k < cw * sw)%nat.
Proof. exact locate. Qed.
Example C129_case : let b := all_books [(3, 2, 1%Z); (3, 2, (-1)%Z); (2, 4, 2%Z)]%nat in
  k_cp b = 20%nat /\ k_spanwise b = [0; 3; 6]%nat /\ k_chordwise b = [0; 2; 4; 6; 8; 10; 12; 16]%nat /\ nth 7 (k_id b) 0%Z = (-1)%Z /\ nth 7 (k_te b) false = true.
Proof. cbn. repeat split. Qed.

(** ** C130 *)
(** a deflection turns each side as a whole about its hinge line, by the change of the angle *)
Theorem C130_turned : forall m d i s, hinged m -> nth_error (d_sides m) i = Some s ->
  exists f, nth_error (d_sides (deflect m d)) i = Some (every f s) /\
    forall x, turned_about (inner_hinge m s) (unit_from (inner_hinge m s) (outer_hinge m s)) (way m (Nat.ltb 0 i) * (d - d_last m)) x (f x).
Proof.
  intros m d i s H I. rewrite (deflect_ok m d H). unfold turn_all. pose proof (hg_line m H) as G. rewrite Forall_forall in G. pose proof (G s (nth_error_In _ _ I)) as N.
  exists (hinge_turn (inner_hinge m s) (unit_from (inner_hinge m s) (outer_hinge m s)) (way m (Nat.ltb 0 i) * (d - d_last m))). split.
  - destruct (d_sides m) as [|s0 r]; [destruct i; discriminate|]. destruct i; cbn [nth_error] in *; [injection I as ->; reflexivity|]. rewrite nth_error_map, I. reflexivity.
  - intro x. apply turn_spec, unit_unit, N.
Qed.
(** such a turn moves nothing on the hinge line, and keeps all distances *)
Theorem C130_rigid : forall p u t x x' y y', vdot u u = 1 -> turned_about p u t x x' -> turned_about p u t y y' -> norm (minus x' y') = norm (minus x y).
Proof.
  intros p u t x x' y y' U X Y. rewrite (turn_unique _ _ _ _ _ X U), (turn_unique _ _ _ _ _ Y U), !rodrigues by exact U. cbv zeta.
  assert (M : minus x y = minus (minus x p) (minus y p)) by (apply v3_eq; unfold minus; cbn; ring). rewrite M. generalize (minus x p), (minus y p). intros r s. unfold norm. f_equal. clear X Y M x y x' y'.
  transitivity (let v := minus r s in vdot (plus (plus (scaled (cos t) v) (scaled (sin t) (cross u v))) (scaled ((1 - cos t) * vdot u v) u)) (plus (plus (scaled (cos t) v) (scaled (sin t) (cross u v))) (scaled ((1 - cos t) * vdot u v) u))).
  { cbv zeta. f_equal; apply v3_eq; unfold minus, plus, scaled, cross, vdot; cbn [vx vy vz]; ring. }
  cbv zeta. generalize (minus r s). intro v. pose proof (sin2_cos2 t) as SC. unfold Rsqr in SC. assert (E2 : sin t * sin t = 1 - cos t * cos t) by lra. clear SC.
  revert E2. generalize (cos t), (sin t). intros co si E2.
  transitivity (co * co * vdot v v + si * si * (vdot u u * vdot v v - vdot u v * vdot u v) + (1 - co) * (1 - co) * (vdot u v * vdot u v) * vdot u u + 2 * co * (1 - co) * (vdot u v * vdot u v)).
  { destruct u as [i j k], v as [a b c]. unfold plus, scaled, cross, vdot. cbn [vx vy vz]. ring. }
  rewrite U, E2. ring.
Qed.
Theorem C130_hinge_stays : forall m d i s, hinged m -> nth_error (d_sides m) i = Some s ->
  exists s', nth_error (d_sides (deflect m d)) i = Some s' /\ inner_hinge (deflect m d) s' = inner_hinge m s /\ outer_hinge (deflect m d) s' = outer_hinge m s.
Proof.
  intros m d i s H I. rewrite (deflect_ok m d H). unfold turn_all. pose proof (hg_line m H) as G. rewrite Forall_forall in G. pose proof (G s (nth_error_In _ _ I)) as N.
  destruct (deflect_fields m d) as (_ & _ & _ & _ & _ & F & _). exists (turn_side m (Nat.ltb 0 i) (d - d_last m) s). split; [|apply hinge_fixed; assumption].
  destruct (d_sides m) as [|s0 r]; [destruct i; discriminate|]. destruct i; cbn [nth_error] in *; [injection I as ->; reflexivity|]. rewrite nth_error_map, I. reflexivity.
Qed.
(** the geometry depends on the last deflection only, however it was reached; going back restores it *)
Lemma hinged_all : forall ds m, hinged m -> hinged (fold_left deflect ds m).
Proof. induction ds as [|d ds IH]; intros m H; [exact H|]. cbn. apply IH, hinged_deflect, H. Qed.
Theorem C130_history : forall ds m d, hinged m -> d_sides (deflect (fold_left deflect ds m) d) = d_sides (deflect m d).
Proof. induction ds as [|e ds IH]; intros m d H; [reflexivity|]. cbn [fold_left]. rewrite IH by (apply hinged_deflect; exact H). apply deflect_twice. exact H. Qed.
Theorem C130_back : forall ds m, hinged m -> d_sides (deflect (fold_left deflect ds m) (d_last m)) = d_sides m.
Proof.
  intros ds m H. rewrite C130_history by exact H. rewrite deflect_ok by exact H. unfold turn_all. pose proof (hg_line m H) as G. replace (d_last m - d_last m) with 0 by ring.
  assert (Z : forall b s, inner_hinge m s <> outer_hinge m s -> turn_side m b 0 s = s).
  { intros b s N. unfold turn_side. apply every_id. intro x. rewrite Rmult_0_r. apply turn_zero, unit_unit, N. }
  destruct (d_sides m) as [|s r]; [reflexivity|]. inversion G as [|? ? G1 G2]; subst. rewrite Z by exact G1. f_equal. rewrite <- (map_id r) at 2. apply map_ext_in. intros t T. rewrite Forall_forall in G2. apply Z, G2, T.
Qed.
(** the mirrored side moves as the mirror image of the first side, deflected [d_dup] times as much *)
Theorem C130_mirrored : forall m s d, hinged m -> d_sides m = [s; every (opposite (d_vertical m)) s] ->
  exists s1 s2, d_sides (deflect m d) = [s1; every (opposite (d_vertical m)) s2] /\ hd [] (d_sides (deflect m (d_last m + d_dup m * (d - d_last m)))) = s2 /\ (d_dup m = 1 -> s2 = s1).
Proof.
  intros m s d H E. rewrite !deflect_ok by exact H. unfold turn_all. rewrite E. cbn [map hd]. exists (turn_side m false (d - d_last m) s), (turn_side m false (d_last m + d_dup m * (d - d_last m) - d_last m) s).
  pose proof (hg_line m H) as G. rewrite E in G. inversion G as [|? ? N _]; subst. split; [|split; [reflexivity|]].
  - f_equal. f_equal. pose proof (opposite_rigid (d_vertical m)) as R. destruct (hinge_every _ _ m m s R eq_refl (has_strip m s N)) as [A B]. unfold turn_side at 1. rewrite A, B. unfold turn_side.
    rewrite !every_every. apply every_ext. intro x. rewrite <- (rigid_unit _ _ _ _ R), (rigid_turn _ _ _ _ _ _ R) by (apply unit_unit; exact N). f_equal. f_equal. unfold way. ring.
  - intro D. f_equal. rewrite D. ring.
Qed.
(** a flap: it meets all this *)
Definition board (y : R) : points :=
  {| t_a1 := V3 0 0 0; t_ah := V3 (1 / 4) 0 0; t_ac := V3 (3 / 4) 0 0; t_a2 := V3 1 0 0; t_b1 := V3 0 y 0; t_bh := V3 (1 / 4) y 0; t_bc := V3 (3 / 4) y 0; t_b2 := V3 1 y 0;
     t_ch := V3 (1 / 4) (y / 2) 0; t_c := V3 (3 / 4) (y / 2) 0 |}.
Definition flap : moving := {| d_vertical := false; d_inverted := 1; d_cs := true; d_slat := false; d_dup := 1; d_fraction := 0; d_constant := false; d_hinge := V3 0 0 0; d_last := 0; d_sides := [[[board 1]]; [[board (-1)]]] |}.
Example C130_case : hinged flap /\ d_sides flap = [[[board 1]]; every (opposite (d_vertical flap)) [[board 1]]].
Proof.
  split; [split|].
  - left; reflexivity.
  - cbn; lra.
  - repeat constructor; unfold inner_hinge, outer_hinge, part, plus, scaled, minus; cbn; intro H; injection H; lra.
  - discriminate.
  - cbn. unfold map_points, opposite, mirror, board. cbn. repeat f_equal; lra.
Qed.
Lemma norm_of x y z r : 0 <= r -> x * x + y * y + z * z = r * r -> npnorm (V3 x y z) = r.
Proof. intros P E. change npnorm with norm. unfold norm, vdot. cbn [vx vy vz]. rewrite E. apply sqrt_square, P. Qed.
(** an all-moving surface whose hinge is not drawn along the chord fraction: the direction found on the right is used on the left as well, so the left half goes the other way *)
Definition stabilator (up : bool) : moving := {| d_vertical := up; d_inverted := 1; d_cs := false; d_slat := false; d_dup := 1; d_fraction := 0; d_constant := false; d_hinge := V3 0 0 0; d_last := 0;
  d_sides := [[[board 1]]; [[board (-1)]]] |}.
Lemma trig_right : cos (PI / 2) = 0 /\ sin (PI / 2) = 1 /\ cos (- (PI / 2)) = 0 /\ sin (- (PI / 2)) = -1.
Proof. rewrite cos_neg, sin_neg, cos_PI2, sin_PI2. repeat split; ring. Qed.
Theorem C130_stabilator_refuted : exists m r l, hd [] (d_sides m) = [[board 1]] /\ d_sides m = [[[board 1]]; every (opposite false) [[board 1]]] /\ d_dup m = 1 /\ d_vertical m = false /\
  d_sides (deflect m (PI / 2)) = [[[r]]; [[l]]] /\ vz (t_a2 r) = -1 /\ vz (t_a2 l) = 1.
Proof.
  exists (stabilator false). unfold deflect. cbn [d_sides stabilator deflect_sides d_hinge].
  unfold deflect_side. cbn [map d_vertical d_inverted stabilator hd].
  assert (H1 : hinge_of (stabilator false) (V3 0 0 0) [map_points (flip_1 false 1) (board 1)] = (V3 0 0 0, V3 0 1 0)).
  { unfold hinge_of. cbn [d_cs d_constant stabilator orb]. replace (is_zero (V3 0 0 0)) with true by (unfold is_zero; cbn; destruct (Req_EM_T 0 0); [reflexivity|lra]).
    cbn [negb andb hd last d_fraction stabilator]. rewrite !between_part by lra. unfold map_points, flip_1, board. cbn [t_a1 t_a2 t_b1 t_b2]. unfold part, plus, scaled, minus, vless. cbn [vx vy vz].
    rewrite (norm_of _ _ _ 1) by lra. unfold vtimes3. cbn. f_equal; f_equal; field. }
  rewrite H1.
  assert (H2 : hinge_of (stabilator false) (V3 0 1 0) [map_points (flip_1 false 1) (board (-1))] = (V3 0 0 0, V3 0 1 0)).
  { unfold hinge_of. cbn [d_cs d_constant stabilator orb]. replace (is_zero (V3 0 1 0)) with false by (unfold is_zero; cbn; destruct (Req_EM_T 0 0); [|reflexivity]; destruct (Req_EM_T 1 0); [lra|reflexivity]).
    cbn [hd last d_fraction d_vertical stabilator]. rewrite !between_part by lra. unfold map_points, flip_1, board. cbn [t_a1 t_a2]. unfold part, plus, scaled, minus. cbn. f_equal. f_equal; ring. }
  rewrite H2. unfold turn_angle. cbn [d_slat d_dup d_vertical d_last stabilator d_inverted].
  replace (1 * 1 * 1 * (PI / 2 - 0)) with (PI / 2) by ring. replace (1 * - (1) * 1 * (PI / 2 - 0)) with (- (PI / 2)) by ring.
  eexists _, _. split; [reflexivity|]. split.
  { cbn. unfold map_points, opposite, mirror, board. cbn. repeat f_equal; lra. }
  split; [reflexivity|]. split; [reflexivity|]. split; [reflexivity|]. cbn [map_points t_a2 board flip_1 flip_2]. unfold hinge_turn. cbv zeta. cbn [vx vy vz].
  destruct trig_right as (-> & -> & -> & ->). split; ring.
Qed.
(** a vertical all-moving surface: from the second deflection on the kept direction has two coordinates exchanged, so going back does not restore it *)
Definition rudder : moving := {| d_vertical := true; d_inverted := 1; d_cs := false; d_slat := false; d_dup := 1; d_fraction := 0; d_constant := false; d_hinge := V3 0 0 0; d_last := 0;
  d_sides := [[[map_points (fun x => V3 (vx x) (vz x) (vy x)) (board 1)]]] |}.
Definition fin : points := map_points (fun x => V3 (vx x) (vz x) (vy x)) (board 1).
Definition fin_turned : points := map_points (fun x => flip_2 true 1 (hinge_turn (V3 0 0 0) (V3 0 1 0) (- (PI / 2)) x)) (map_points (flip_1 true 1) fin).
Definition rudder_turned : moving := {| d_vertical := true; d_inverted := 1; d_cs := false; d_slat := false; d_dup := 1; d_fraction := 0; d_constant := false; d_hinge := V3 0 1 0; d_last := PI / 2;
  d_sides := [[[fin_turned]]] |}.
Lemma hinge_kept m h s : d_cs m = false -> d_constant m = false -> is_zero h = false -> d_vertical m = true -> d_fraction m = 0 ->
  hinge_of m h [s] = (between 0 (t_a1 s) (t_a2 s), V3 (vx h) (vz h) (vy h)).
Proof. intros A B C D F. unfold hinge_of. rewrite A, B, C, D, F. reflexivity. Qed.
Lemma rudder_first : deflect rudder (PI / 2) = rudder_turned.
Proof.
  unfold deflect. cbn [d_sides rudder deflect_sides d_hinge]. unfold deflect_side. cbn [map d_vertical d_inverted rudder hd].
  assert (H1 : hinge_of rudder (V3 0 0 0) [map_points (flip_1 true 1) fin] = (V3 0 0 0, V3 0 1 0)).
  { unfold hinge_of. cbn [d_cs d_constant rudder orb]. replace (is_zero (V3 0 0 0)) with true by (unfold is_zero; cbn; destruct (Req_EM_T 0 0); [reflexivity|lra]).
    cbn [negb andb hd last d_fraction rudder]. rewrite !between_part by lra. unfold fin, map_points, flip_1, board. cbn [t_a1 t_a2 t_b1 t_b2]. unfold part, plus, scaled, minus, vless. cbn [vx vy vz].
    rewrite (norm_of _ _ _ 1) by lra. unfold vtimes3. cbn. f_equal; f_equal; field. }
  fold fin. rewrite H1. unfold turn_angle. cbn [d_slat d_dup d_vertical d_last rudder d_inverted d_cs d_fraction d_constant].
  replace (1 * 1 * -1 * (PI / 2 - 0)) with (- (PI / 2)) by ring. reflexivity.
Qed.
Theorem C130_rudder_refuted : d_last rudder = 0 /\ d_sides (deflect (deflect rudder (PI / 2)) 0) <> d_sides rudder.
Proof.
  split; [reflexivity|]. rewrite rudder_first.
  assert (H2 : hinge_of rudder_turned (V3 0 1 0) [map_points (flip_1 true 1) fin_turned] = (V3 0 0 0, V3 0 0 1)).
  { rewrite hinge_kept; try reflexivity.
    - rewrite between_part by lra. f_equal. unfold fin_turned, fin, map_points. cbn [t_a1 t_a2]. unfold flip_1, flip_2, hinge_turn, board, part, plus, scaled, minus. cbn [t_a1 t_a2 vx vy vz]. f_equal; ring.
    - unfold is_zero. cbn [vx vy vz]. destruct (Req_EM_T 0 0); [|reflexivity]; destruct (Req_EM_T 1 0); [lra|reflexivity]. }
  unfold deflect. change (d_sides rudder_turned) with [[[fin_turned]]]. change (d_hinge rudder_turned) with (V3 0 1 0). cbn [deflect_sides]. unfold deflect_side.
  change (d_vertical rudder_turned) with true. change (d_inverted rudder_turned) with 1. cbn [map hd]. rewrite H2. cbn [d_sides]. change (d_sides rudder) with [[[fin]]].
  replace (turn_angle rudder_turned false 0) with (PI / 2) by (unfold turn_angle; cbn; ring).
  intro H. assert (Q : forall a b : points, [[[a]]] = [[[b]]] -> vx (t_a2 a) = vx (t_a2 b)) by (intros a b E; injection E as ->; reflexivity).
  apply Q in H. unfold fin_turned, fin, map_points in H. cbn [t_a2] in H. unfold flip_1, flip_2, hinge_turn, board in H. cbn [t_a2 vx vy vz] in H. destruct trig_right as (C1 & C2 & C3 & C4). rewrite C1, C2, C3, C4 in H. lra.
Qed.
Print Assumptions C123_accepted.
Print Assumptions C123_refused.
Print Assumptions C124_stations.
Print Assumptions C124_sections_kept.
Print Assumptions C124_too_few.
Print Assumptions C124_surface_lines_up.
Print Assumptions C124_surface_rows.
Print Assumptions C125_strips.
Print Assumptions C126_neighbours.
Print Assumptions C126_across.
Print Assumptions C126_quarters.
Print Assumptions C126_middle.
Print Assumptions C126_chord.
Print Assumptions C126_linear.
Print Assumptions C126_leading_edge.
Print Assumptions C126_control_line_refuted.
Print Assumptions C127_mirrored.
Print Assumptions C127_upright.
Print Assumptions C127_upright_refuted.
Print Assumptions C128_area.
Print Assumptions C128_planform.
Print Assumptions C129_lists.
Print Assumptions C129_side.
Print Assumptions C129_mask.
Print Assumptions C129_every_panel.
Print Assumptions C130_turned.
Print Assumptions C130_rigid.
Print Assumptions C130_hinge_stays.
Print Assumptions C130_history.
Print Assumptions C130_back.
Print Assumptions C130_mirrored.
Print Assumptions C130_stabilator_refuted.
Print Assumptions C130_rudder_refuted.
