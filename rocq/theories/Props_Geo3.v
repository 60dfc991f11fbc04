(** * Properties of fuselages, origins, tails and nacelles *)
From Coq Require Import Reals List Arith ZArith Bool Lia Lra.
From Verif Require Import PyBase M_Opt P_Opt M_Drag P_Super P_Friction M_Wing M_Geo2 S_Geo2 P_Geo2.
Import ListNotations.
Local Open Scope R_scope.

Local Ltac eqd := repeat match goal with |- context [Req_EM_T ?a ?b] => destruct (Req_EM_T a b) end.

(** ** C169 fuselages *)
(** no length given: the lengths add up and the seats stay *)
Theorem C169_sized f g : fu_total f = 0 -> fuselage_planform f = Ok g ->
  fu_nose g = fu_nose_f f * fu_width f /\ fu_tail g = fu_tail_f f * fu_width f /\ fu_cabin g = fu_seats f * fu_pitch f / fu_abreast f + fu_fore f + fu_aft f /\
  fu_total g = fu_nose g + fu_cabin g + fu_tail g /\ fu_seats g = fu_seats f.
Proof.
  intros T. unfold fuselage_planform, fuse_lengths. eqd; cbn [bind]; try easy; eqd; try discriminate. intro E. injection E as <-. cbn. repeat split; ring.
Qed.
(** a length given, with room for the cabin: the lengths add up to it, and the seats are the whole number nearest to what fits *)
Theorem C169_given f g : 0 < fu_total f -> 0 < fu_nose_f f * fu_width f -> 0 < fu_tail_f f * fu_width f -> 1 < fu_total f - fu_nose_f f * fu_width f - fu_tail_f f * fu_width f ->
  0 <= fu_abreast f / fu_pitch f -> fuselage_planform f = Ok g ->
  fu_total g = fu_total f /\ fu_nose g = fu_nose_f f * fu_width f /\ fu_tail g = fu_tail_f f * fu_width f /\ fu_total g = fu_nose g + fu_cabin g + fu_tail g /\
  exists n, fu_seats g = INR n /\ Rabs (INR n - fu_cabin g * fu_abreast f / fu_pitch f) <= 1 / 2.
Proof.
  intros T N L C A. unfold fuselage_planform, fuse_lengths. eqd; cbn [bind]; try lra; try easy; eqd; try discriminate. intro E. injection E as <-. cbn.
  unfold at_least_one. rewrite (proj2 (Rltb_true _ _) T), (proj2 (Rltb_true _ _) N), (proj2 (Rltb_true _ _) L), (proj2 (Rltb_true _ _) C).
  repeat split; try ring. set (q := (fu_total f - fu_nose_f f * fu_width f - fu_tail_f f * fu_width f) * fu_abreast f / fu_pitch f).
  assert (Q : 0 <= q). { unfold q, Rdiv in *. rewrite Rmult_assoc. apply Rmult_le_pos; lra. }
  destruct (round_near q) as [R1 R2]. assert (Z : (0 <= np_round q)%Z) by (apply round_nonneg; exact Q).
  exists (Z.to_nat (np_round q)). rewrite INR_IZR_INZ, Z2Nat.id by exact Z. split; [|apply Rabs_le; lra].
  destruct (Rltb 0 (IZR (np_round q))) eqn:B; [reflexivity|]. apply Rltb_false in B. apply le_IZR in B. f_equal. lia.
Qed.
(** without that room the lengths need not add up: a fuselage with no nose gets one of 1 m on top of its length *)
Theorem C169_clamp_refuted : exists f g, 0 < fu_total f /\ 0 <= fu_nose_f f /\ fuselage_planform f = Ok g /\ fu_total g < fu_nose g + fu_cabin g + fu_tail g.
Proof.
  exists (Fuse 0 1 1 0 1 0 0 2 2 10 0 0 0 0 0 0). eexists. split; [cbn; lra|]. split; [cbn; lra|]. unfold fuselage_planform, fuse_lengths. cbn [fu_total fu_pitch fu_width fu_height fu_nose_f fu_tail_f fu_abreast].
  eqd; try lra. cbn [bind]. eqd; try lra. split; [reflexivity|]. cbn [fu_total fu_nose fu_cabin fu_tail]. unfold at_least_one.
  rewrite (proj2 (Rltb_true 0 10)), (proj2 (Rltb_false 0 (0 * 2))), (proj2 (Rltb_true 0 (1 * 2))), (proj2 (Rltb_true 1 (10 - 0 * 2 - 1 * 2))) by lra. lra.
Qed.
(** sized a second time: the same shape, but the seats now also fill the space kept free *)
Theorem C169_again f g h : fu_total f = 0 -> 0 < fu_nose_f f * fu_width f -> 0 < fu_tail_f f * fu_width f -> 1 < fu_seats f * fu_pitch f / fu_abreast f + fu_fore f + fu_aft f ->
  fuselage_planform f = Ok g -> fuselage_planform g = Ok h ->
  fu_nose h = fu_nose g /\ fu_tail h = fu_tail g /\ fu_cabin h = fu_cabin g /\ fu_total h = fu_total g /\ fu_wetted h = fu_wetted g /\ fu_front h = fu_front g /\ fu_deff h = fu_deff g /\
  fu_seats h = Rmax 0 (IZR (np_round (fu_seats f + (fu_fore f + fu_aft f) * fu_abreast f / fu_pitch f))).
Proof.
  intros T N L C. unfold fuselage_planform at 1, fuse_lengths at 1. eqd; cbn [bind]; try easy; eqd; try discriminate. intro E. injection E as <-.
  unfold fuselage_planform, fuse_lengths. cbn [fu_total fu_pitch fu_width fu_height fu_nose_f fu_tail_f fu_abreast fu_seats fu_fore fu_aft]. set (c := fu_seats f * fu_pitch f / fu_abreast f + fu_fore f + fu_aft f) in *.
  destruct (Req_EM_T (c + _ + _) 0) as [Z|Z]; [lra|]. destruct (Req_EM_T (fu_pitch f) 0) as [|P]; cbn [bind]; [discriminate|]. eqd; [lra|].
  unfold at_least_one. replace (c + fu_nose_f f * fu_width f + fu_tail_f f * fu_width f - fu_nose_f f * fu_width f - fu_tail_f f * fu_width f) with c by ring.
  rewrite (proj2 (Rltb_true _ _) N), (proj2 (Rltb_true _ _) L), (proj2 (Rltb_true _ _) C), (proj2 (Rltb_true 0 (c + fu_nose_f f * fu_width f + fu_tail_f f * fu_width f))) by lra.
  intro E. injection E as <-. cbn. repeat split; try ring.
  replace (c * fu_abreast f / fu_pitch f) with (fu_seats f + (fu_fore f + fu_aft f) * fu_abreast f / fu_pitch f) by (unfold c; field; lra).
  set (s := IZR (np_round _)). destruct (Rltb 0 s) eqn:B; [apply Rltb_true in B; rewrite Rmax_right by lra; reflexivity|apply Rltb_false in B; rewrite Rmax_left by lra; reflexivity].
Qed.
Theorem C169_again_refuted : exists f g h, fuselage_planform f = Ok g /\ fuselage_planform g = Ok h /\ fu_seats f = 100 /\ fu_seats g = 100 /\ fu_seats h = 110.
Proof.
  set (f := Fuse 100 1 5 2 3 1 1 4 4 0 0 0 0 0 0 0).
  assert (G : exists g, fuselage_planform f = Ok g). { unfold fuselage_planform, fuse_lengths, f. cbn [fu_total fu_pitch fu_width fu_height fu_nose_f fu_tail_f fu_abreast]. eqd; try lra. cbn [bind]. eqd; try lra. eexists. reflexivity. }
  destruct G as (g & G). assert (H : exists h, fuselage_planform g = Ok h).
  { unfold fuselage_planform, fuse_lengths, f in G. cbn [fu_total fu_pitch fu_width fu_height fu_nose_f fu_tail_f fu_abreast fu_seats fu_fore fu_aft] in G. revert G. eqd; try lra. cbn [bind]. eqd; try lra. intro G. injection G as <-.
    unfold fuselage_planform, fuse_lengths. cbn [fu_total fu_pitch fu_width fu_height fu_nose_f fu_tail_f fu_abreast]. eqd; try lra; cbn [bind]; eqd; try lra; eexists; reflexivity. }
  destruct H as (h & H). exists f, g, h. split; [exact G|]. split; [exact H|]. split; [reflexivity|]. split; [apply (C169_sized f g); [reflexivity|exact G]|].
  destruct (C169_again f g h ltac:(reflexivity) ltac:(cbn; lra) ltac:(cbn; lra) ltac:(cbn; lra) G H) as (_ & _ & _ & _ & _ & _ & _ & ->).
  cbn [f fu_seats fu_fore fu_aft fu_abreast fu_pitch]. replace (100 + (1 + 1) * 5 / 1) with (IZR 110) by field. rewrite round_int. apply Rmax_right. lra.
Qed.
(** a round fuselage of diameter d *)
Theorem C169_round f g : fu_height f = fu_width f -> fuselage_planform f = Ok g ->
  let d := fu_width f in fu_deff g = d /\ fu_front g = PI * (d / 2) ^ 2 /\ fu_wetted g = PI * d * (fu_cabin g + 75 / 100 * (fu_nose g + fu_tail g)).
Proof.
  intros HW. unfold fuselage_planform. destruct (fuse_lengths f) as [[[[[n t] c] l] s]|]; [|discriminate]. cbn [bind]. rewrite HW. eqd; [discriminate|]. intro E. injection E as <-. cbn [fu_deff fu_front fu_wetted fu_cabin fu_nose fu_tail]. cbv zeta.
  assert (O : oval (fu_width f / 2) (fu_width f / 2) = 0) by (unfold oval; rewrite Rminus_diag_eq by reflexivity; unfold Rdiv; ring).
  assert (D : effective (fu_width f / 2) (fu_width f / 2) = fu_width f) by (unfold effective; rewrite O; field).
  assert (C : circumference (fu_width f / 2) (fu_width f / 2) = PI * fu_width f).
  { unfold circumference. rewrite O. replace (4 - 3 * 0 ^ 2) with (2 * 2) by ring. rewrite sqrt_square by lra. field. }
  rewrite D, C. repeat split; field.
Qed.
(** the perimeter and the effective diameter of an oval, and its area *)
Theorem C169_oval f g : 0 <= fu_width f -> 0 <= fu_height f -> 0 <= fu_cabin g -> 0 <= fu_nose g + fu_tail g -> fuselage_planform f = Ok g ->
  let d := (fu_width f + fu_height f) / 2 in
  d <= fu_deff g <= 61 / 48 * d /\ fu_front g = PI / 4 * fu_width f * fu_height f /\
  PI * d * (fu_cabin g + 75 / 100 * (fu_nose g + fu_tail g)) <= fu_wetted g <= PI * d * (14 / 11 * fu_cabin g + 75 / 100 * (61 / 48) * (fu_nose g + fu_tail g)).
Proof.
  intros W H Cn Nn. unfold fuselage_planform. destruct (fuse_lengths f) as [[[[[n t] c] l] s]|]; [|discriminate]. cbn [bind]. eqd; [discriminate|]. intro E. injection E as <-. cbn [fu_deff fu_front fu_wetted fu_cabin fu_nose fu_tail] in *. cbv zeta.
  set (d := (fu_width f + fu_height f) / 2). destruct (oval_bounds (fu_width f / 2) (fu_height f / 2) ltac:(lra) ltac:(lra) ltac:(lra)) as (D1 & D2 & C1 & C2).
  replace (fu_width f / 2 + fu_height f / 2) with d in * by (unfold d; field). pose proof PI_RGT_0. repeat split; try assumption; [field| |].
  - assert (PI * d * c <= circumference (fu_width f / 2) (fu_height f / 2) * c) by (apply Rmult_le_compat_r; assumption).
    assert (75 / 100 * PI * d * (n + t) <= 75 / 100 * PI * effective (fu_width f / 2) (fu_height f / 2) * (n + t)) by (apply Rmult_le_compat_r; [assumption|]; apply Rmult_le_compat_l; lra). lra.
  - assert (circumference (fu_width f / 2) (fu_height f / 2) * c <= 14 / 11 * (PI * d) * c) by (apply Rmult_le_compat_r; assumption).
    assert (75 / 100 * PI * effective (fu_width f / 2) (fu_height f / 2) * (n + t) <= 75 / 100 * PI * (61 / 48 * d) * (n + t)) by (apply Rmult_le_compat_r; [assumption|]; apply Rmult_le_compat_l; lra). lra.
Qed.
(** which way the oval stands does not matter *)
Theorem C169_turned f f' g g' : fu_width f' = fu_height f -> fu_height f' = fu_width f -> fuselage_planform f = Ok g -> fuselage_planform f' = Ok g' ->
  fu_deff g' = fu_deff g /\ fu_front g' = fu_front g /\ (fu_cabin g' = fu_cabin g -> fu_nose g' + fu_tail g' = fu_nose g + fu_tail g -> fu_wetted g' = fu_wetted g).
Proof.
  intros W H. unfold fuselage_planform. rewrite W, H. destruct (fuse_lengths f) as [[[[[n t] c] l] s]|]; [|discriminate]. destruct (fuse_lengths f') as [[[[[n' t'] c'] l'] s']|]; [|discriminate]. cbn [bind].
  eqd; try discriminate. intros E E'. injection E as <-. injection E' as <-. cbn [fu_deff fu_front fu_wetted fu_cabin fu_nose fu_tail].
  destruct (turned (fu_width f / 2) (fu_height f / 2)) as [-> ->]. split; [reflexivity|]. split; [ring|]. now intros -> ->.
Qed.
(** every length k times as long, with no length given: areas grow with k squared *)
Definition enlarged (k : R) (f : fuse) : fuse := Fuse (fu_seats f) (k * fu_pitch f) (fu_abreast f) (fu_nose_f f) (fu_tail_f f) (k * fu_fore f) (k * fu_aft f) (k * fu_width f) (k * fu_height f) (k * fu_total f)
  (fu_nose f) (fu_tail f) (fu_cabin f) (fu_wetted f) (fu_front f) (fu_deff f).
Theorem C169_scaling k f g : 0 < k -> fu_total f = 0 -> fuselage_planform f = Ok g -> exists h, fuselage_planform (enlarged k f) = Ok h /\
  fu_nose h = k * fu_nose g /\ fu_tail h = k * fu_tail g /\ fu_cabin h = k * fu_cabin g /\ fu_total h = k * fu_total g /\ fu_deff h = k * fu_deff g /\ fu_wetted h = k ^ 2 * fu_wetted g /\ fu_front h = k ^ 2 * fu_front g /\ fu_seats h = fu_seats g.
Proof.
  intros K T. unfold fuselage_planform, fuse_lengths. cbn [enlarged fu_total fu_pitch fu_width fu_height fu_nose_f fu_tail_f fu_abreast fu_seats fu_fore fu_aft]. rewrite T, Rmult_0_r. destruct (Req_EM_T 0 0); [|lra].
  destruct (Req_EM_T (fu_abreast f) 0) as [|A]; [discriminate|]. cbn [bind].
  destruct (Req_EM_T (fu_width f / 2 + fu_height f / 2) 0) as [|Z]; [discriminate|]. destruct (Req_EM_T (k * fu_width f / 2 + k * fu_height f / 2) 0) as [Z'|_].
  { exfalso. apply Z. assert (H : k * (fu_width f / 2 + fu_height f / 2) = 0) by lra. apply Rmult_integral in H. lra. }
  intro E. injection E as <-. eexists. split; [reflexivity|]. cbn.
  assert (O : oval (k * fu_width f / 2) (k * fu_height f / 2) = oval (fu_width f / 2) (fu_height f / 2)) by (apply oval_scale; assumption || lra).
  assert (Cc : circumference (k * fu_width f / 2) (k * fu_height f / 2) = k * circumference (fu_width f / 2) (fu_height f / 2)) by (unfold circumference; rewrite O; field; apply Rgt_not_eq; pose proof (sqrt_pos (4 - 3 * oval (fu_width f / 2) (fu_height f / 2) ^ 2)); lra).
  assert (D : effective (k * fu_width f / 2) (k * fu_height f / 2) = k * effective (fu_width f / 2) (fu_height f / 2)) by (unfold effective; rewrite O; unfold Rdiv; ring).
  rewrite Cc, D. repeat split; field; assumption.
Qed.
Example C169_case : exists g, fuselage_planform (Fuse 100 1 5 2 3 1 1 4 (42 / 10) 0 0 0 0 0 0 0) = Ok g /\ fu_total g = 42 /\ fu_seats g = 100.
Proof.
  assert (G : exists g, fuselage_planform (Fuse 100 1 5 2 3 1 1 4 (42 / 10) 0 0 0 0 0 0 0) = Ok g). { unfold fuselage_planform, fuse_lengths. cbn [fu_total fu_pitch fu_width fu_height fu_nose_f fu_tail_f fu_abreast]. eqd; try lra. cbn [bind]. eqd; try lra. eexists. reflexivity. }
  destruct G as (g & G). exists g. split; [exact G|]. pose proof (fun T => C169_sized _ g T G) as H. destruct (H eq_refl) as (N & T & C & L & S). rewrite L, N, T, C, S. cbn. split; lra.
Qed.

(** ** C170 origins relative to the length of the vehicle *)
(** wings and fuselages come back to where they were, moved in proportion if the vehicle has been stretched in between *)
Theorem C170_bodies v v' w w' : length_scale v <> 0 -> non_dimensional v = Ok v' -> cr_bodies w = cr_bodies v' -> dimensional w = Ok w' ->
  map fst (cr_bodies w') = map (fun b => map (fun p => let '(x, y, z) := p in (x * (length_scale w / length_scale v), y * (length_scale w / length_scale v), z * (length_scale w / length_scale v))) (fst b)) (cr_bodies v) /\
  map snd (cr_bodies w') = map snd (cr_bodies v').
Proof.
  intros K E B D. apply nd_ok in E. destruct E as (ns & _ & ->). apply di_ok in D. destruct D as (ms & _ & ->). cbn [cr_bodies] in *. rewrite B, !map_map. cbn [fst snd].
  split; [|apply map_ext; reflexivity]. apply map_ext. intro b. rewrite map_map. apply map_ext. intros [[x y] z]. cbn [scaled]. f_equal; [f_equal|]; field; exact K.
Qed.
Theorem C170_round_trip v v' w' : length_scale v <> 0 -> non_dimensional v = Ok v' -> dimensional v' = Ok w' ->
  length_scale v' = length_scale v /\ length_scale w' = length_scale v /\ map fst (cr_bodies w') = map fst (cr_bodies v) /\ map snd (cr_bodies w') = map snd (cr_bodies v').
Proof.
  intros K E D. assert (L : length_scale v' = length_scale v) by (apply nd_ok in E; destruct E as (ns & _ & ->); reflexivity).
  split; [exact L|]. split. { apply di_ok in D. destruct D as (ms & _ & ->). exact L. }
  destruct (C170_bodies v v' v' w' K E eq_refl D) as [A B]. split; [|exact B]. rewrite A. apply map_ext. intro b. etransitivity; [|apply map_id]. apply map_ext. intros [[x y] z].
  rewrite L. f_equal; [f_equal|]; field; exact K.
Qed.
(** engines come back as mirrored copies of the first *)
Theorem C170_engines v v' w' : length_scale v <> 0 -> non_dimensional v = Ok v' -> dimensional v' = Ok w' ->
  length (cr_nets w') = length (cr_nets v) /\
  forall j n, nth_error (cr_nets v) j = Some n -> exists n', nth_error (cr_nets w') j = Some n' /\ ne_engines n' = ne_engines n /\
    length (ne_origin n') = ne_engines n /\ (ne_engines n <= length (ne_origin n))%nat /\
    forall p, nth_error (ne_origin n) 0 = Some p -> forall i, (i < ne_engines n)%nat -> nth_error (ne_origin n') i = Some (laid_out p (ne_engines n) i).
Proof.
  intros K E D. assert (L : length_scale v' = length_scale v) by (apply nd_ok in E; destruct E as (ns & _ & ->); reflexivity).
  apply nd_ok in E. destruct E as (ns & NE & ->). apply di_ok in D. destruct D as (ms & MD & ->). cbn [cr_nets] in *. rewrite L in MD.
  destruct (mapr_spec _ _ _ NE) as [L1 S1]. destruct (mapr_spec _ _ _ MD) as [L2 S2]. split; [lia|]. intros j n J.
  destruct (S1 j n J) as (n1 & J1 & E1). destruct (S2 j n1 J1) as (n2 & J2 & E2). exists n2. split; [exact J2|].
  apply bind_ok in E1. destruct E1 as (l & M1 & ->). cbn [ne_engines ne_plain ne_origin] in E2. apply bind_ok in E2. destruct E2 as (o & M2 & ->). cbn [ne_engines ne_plain ne_origin].
  destruct (mapr_spec _ _ _ M1) as [L3 S3]. destruct (mapr_spec _ _ _ M2) as [L4 S4]. rewrite seq_length in L3, L4. split; [reflexivity|]. split; [exact L4|]. split.
  - destruct (ne_engines n) as [|e] eqn:En; [lia|]. destruct (S3 e e) as (b & _ & B).
    { apply nth_error_seq. lia. } unfold item in B. destruct (nth_error (ne_origin n) e) eqn:Ie; [|discriminate]. apply nth_error_Some. rewrite Ie. discriminate.
  - intros p P i I. destruct (S4 i i) as (q & Q & B); [now apply nth_error_seq|]. rewrite Q. f_equal.
    destruct (S3 0%nat 0%nat) as (b & B0 & Eb); [apply nth_error_seq; lia|]. unfold item in Eb. rewrite P in Eb. cbn [bind] in Eb. injection Eb as <-.
    unfold engine_origin, item in B. rewrite B0 in B. cbn [bind] in B. destruct p as [[x y] z]. cbn [scaled] in B. injection B as <-. unfold laid_out. rewrite <- Nat.negb_even.
    assert (Z : Nat.eqb i (ne_engines n - 1) = Nat.eqb (S i) (ne_engines n)). { destruct (Nat.eqb_spec i (ne_engines n - 1)), (Nat.eqb_spec (S i) (ne_engines n)); reflexivity || lia. }
    rewrite Z. destruct (Nat.even i); cbn [negb]; [destruct (Nat.eqb (S i) (ne_engines n))|]; (f_equal; [f_equal|]); try reflexivity; field; exact K.
Qed.
(** so four engines in two pairs are not put back, nor is a single engine off the centreline *)
Theorem C170_engines_refuted : exists v v' w', length_scale v = 10 /\ non_dimensional v = Ok v' /\ dimensional v' = Ok w' /\
  map ne_origin (cr_nets v) = [[(1, 2, 0); (1, -2, 0); (1, 4, 0); (1, -4, 0)]; [(1, 3, 0)]] /\
  map ne_origin (cr_nets w') = [[(1, 2, 0); (1, -2, 0); (1, 2, 0); (1, -2, 0)]; [(1, 0, 0)]].
Proof.
  set (v := Craft (Some 10) None [] [Net 4 [(1, 2, 0); (1, -2, 0); (1, 4, 0); (1, -4, 0)] []; Net 1 [(1, 3, 0)] []]). exists v. do 2 eexists.
  split; [reflexivity|]. split; [reflexivity|]. split; [reflexivity|]. split; [reflexivity|].
  cbn [v cr_nets map ne_origin]. apply (f_equal2 cons); [repeat apply (f_equal2 cons)|repeat apply (f_equal2 cons)]; try reflexivity; (f_equal; [f_equal|]; cbn; field).
Qed.
(** what raises, and what does not: more engines than origins, and engines with no relative origin *)
Theorem C170_errors v :
  ((exists n, In n (cr_nets v) /\ (length (ne_origin n) < ne_engines n)%nat) <-> non_dimensional v = Err IndexError) /\
  ((exists n, In n (cr_nets v) /\ ne_plain n = [] /\ (0 < ne_engines n)%nat) <-> dimensional v = Err IndexError) /\
  (forall e, non_dimensional v = Err e -> e = IndexError) /\ (forall e, dimensional v = Err e -> e = IndexError).
Proof.
  assert (A : (exists n, In n (cr_nets v) /\ (length (ne_origin n) < ne_engines n)%nat) <-> non_dimensional v = Err IndexError).
  { unfold non_dimensional. split.
    - intros (n & I & L). rewrite (mapr_bad _ IndexError (cr_nets v) n I); [reflexivity| |].
      + rewrite (mapr_bad _ IndexError (seq 0 (ne_engines n)) (length (ne_origin n))); [reflexivity|apply in_seq; lia| |].
        * unfold item. now rewrite (proj2 (nth_error_None _ _)).
        * intros i _. unfold item. destruct (nth_error _ i); cbn [bind]; [left; eexists; reflexivity|now right].
      + intros n' _. destruct (mapr_err (fun i => bind (item (ne_origin n') i) (fun p => Ok (scaled (/ length_scale v) p))) IndexError (seq 0 (ne_engines n'))) as [[l E]|E]; [|rewrite E; left; eexists; reflexivity|rewrite E; now right].
        intros i _. unfold item. destruct (nth_error _ i); cbn [bind]; [left; eexists; reflexivity|now right].
    - intro E. apply bind_err in E. apply mapr_find in E. destruct E as (n & I & E). exists n. split; [exact I|]. apply bind_err in E. apply mapr_find in E. destruct E as (i & J & E). apply in_seq in J.
      unfold item in E. destruct (nth_error (ne_origin n) i) eqn:Z; [discriminate|]. apply nth_error_None in Z. lia. }
  assert (B : (exists n, In n (cr_nets v) /\ ne_plain n = [] /\ (0 < ne_engines n)%nat) <-> dimensional v = Err IndexError).
  { unfold dimensional. split.
    - intros (n & I & P & L). rewrite (mapr_bad _ IndexError (cr_nets v) n I); [reflexivity| |].
      + rewrite (mapr_bad _ IndexError (seq 0 (ne_engines n)) 0%nat); [reflexivity|apply in_seq; lia| |].
        * unfold engine_origin. now rewrite P.
        * intros i _. unfold engine_origin, item. destruct (nth_error _ _) as [[[x y] z]|]; cbn [bind scaled]; [left; eexists; reflexivity|now right].
      + intros n' _. destruct (mapr_err (engine_origin (length_scale v) (ne_engines n') (ne_plain n')) IndexError (seq 0 (ne_engines n'))) as [[l E]|E]; [|rewrite E; left; eexists; reflexivity|rewrite E; now right].
        intros i _. unfold engine_origin, item. destruct (nth_error _ _) as [[[x y] z]|]; cbn [bind scaled]; [left; eexists; reflexivity|now right].
    - intro E. apply bind_err in E. apply mapr_find in E. destruct E as (n & I & E). exists n. split; [exact I|]. apply bind_err in E. apply mapr_find in E. destruct E as (i & J & E). apply in_seq in J.
      unfold engine_origin, item in E. destruct (ne_plain n) as [|[[x y] z] r]; [split; [reflexivity|lia]|discriminate]. }
  split; [exact A|]. split; [exact B|]. split.
  - intros e E. unfold non_dimensional in E. apply bind_err in E. apply mapr_find in E. destruct E as (n & I & E). apply bind_err in E. apply mapr_find in E. destruct E as (i & J & E). unfold item in E. destruct (nth_error _ i); [discriminate|]. cbn in E. congruence.
  - intros e E. unfold dimensional in E. apply bind_err in E. apply mapr_find in E. destruct E as (n & I & E). apply bind_err in E. apply mapr_find in E. destruct E as (i & J & E). unfold engine_origin, item in E. destruct (nth_error _ _) as [[[x y] z]|]; [discriminate|]. cbn in E. congruence.
Qed.
Example C170_case : let v := Craft None (Some 4) [([(1, 2, 3)], [])] [Net 2 [(2, 3, 1); (2, -3, 1)] []] in exists v' w', non_dimensional v = Ok v' /\ dimensional v' = Ok w' /\ map fst (cr_bodies w') = [[(1, 2, 3)]] /\ length (cr_nets w') = 1%nat.
Proof.
  cbv zeta. do 2 eexists. split; [reflexivity|]. split; [reflexivity|]. split; [|reflexivity]. cbn. repeat apply (f_equal2 cons); try reflexivity. f_equal; [f_equal|]; field.
Qed.

(** ** C171 sizing rules *)
(** a tail has the area that its volume coefficient asks for, and only its area is changed before its planform is worked out *)
Theorem C171_horizontal tail mac sref l c : 0 < mac -> 0 < sref -> 0 < l ->
  let (t, p) := horizontal_tail tail mac sref l c in
  w_sref t * l / (mac * sref) = c /\ t = with_area (w_sref t) tail /\ p = wing_planform t /\ (0 < w_ar tail -> 0 <= c -> p_span p ^ 2 = w_ar tail * w_sref t).
Proof.
  intros M S L. unfold horizontal_tail, vertical_tail. cbv zeta. cbn [with_area w_sref]. split; [field; lra|]. split; [reflexivity|]. split; [reflexivity|]. intros A C. rewrite span_is, pow2_sqrt; [reflexivity|]. cbn [with_area w_ar w_sref].
  apply Rmult_le_pos; [lra|]. apply Rmult_le_pos; [|left; now apply Rinv_0_lt_compat]. apply Rmult_le_pos; [|lra]. apply Rmult_le_pos; lra.
Qed.
Theorem C171_vertical tail span sref l c : 0 < span -> 0 < sref -> 0 < l ->
  let (t, p) := vertical_tail tail span sref l c in
  w_sref t * l / (span * sref) = c /\ t = with_area (w_sref t) tail /\ p = wing_planform t /\ (0 < w_ar tail -> 0 <= c -> p_span p ^ 2 = w_ar tail * w_sref t).
Proof.
  intros M S L. unfold horizontal_tail, vertical_tail. cbv zeta. cbn [with_area w_sref]. split; [field; lra|]. split; [reflexivity|]. split; [reflexivity|]. intros A C. rewrite span_is, pow2_sqrt; [reflexivity|]. cbn [with_area w_ar w_sref].
  apply Rmult_le_pos; [lra|]. apply Rmult_le_pos; [|left; now apply Rinv_0_lt_compat]. apply Rmult_le_pos; [|lra]. apply Rmult_le_pos; lra.
Qed.
(** the tanks take 49.5% of thickness ratio times mean chord times area *)
Theorem C171_fuel sref ar tc span : 0 < sref -> 0 < ar -> 0 < span -> span ^ 2 = ar * sref -> fuel_volume sref ar tc = 495 / 1000 * (tc * (sref / span)) * sref.
Proof.
  intros S A B E. unfold fuel_volume. rewrite P_Super.pw_pos by exact S. replace (3 / 2) with (1 + / 2) by field. rewrite Rpower_plus, Rpower_1, Rpower_sqrt by exact S.
  rewrite Rpower_Ropp. replace (1 / 2) with (/ 2) by field. rewrite Rpower_sqrt by exact A. assert (D : span = sqrt ar * sqrt sref) by (rewrite <- sqrt_mult, <- E by lra; symmetry; apply sqrt_pow2; lra).
  pose proof (sqrt_lt_R0 _ S). pose proof (sqrt_lt_R0 _ A). rewrite D. assert (Q : sref = sqrt sref * sqrt sref) by (rewrite sqrt_sqrt; lra). set (s := sqrt sref) in *. rewrite Q. field. lra.
Qed.
(** a larger engine is larger in every way; the inlet is the nacelle's area over 2.1 *)
Theorem C171_turbofan thrust : 0 < thrust -> let '(d, l, i, w) := turbofan thrust in
  0 < d /\ 0 < l /\ 0 < i /\ i < d /\ d ^ 2 = 21 / 10 * i ^ 2 /\ w = 11 / 10 * (PI * d * l).
Proof.
  intro T. cbn. pose proof lbf_pos. assert (0 < thrust / lbf) by (apply Rmult_lt_0_compat; [exact T|now apply Rinv_0_lt_compat]).
  pose proof (P_Friction.pw_pos (thrust / lbf) (4134 / 10000) ltac:(assumption)). pose proof (P_Friction.pw_pos (thrust / lbf) (3876 / 10000) ltac:(assumption)).
  set (a := pw _ (4134 / 10000)) in *. set (b := pw _ (3876 / 10000)) in *. set (d := 254 / 10000 * (10827 / 10000 * a)). assert (D : 0 < d) by (unfold d; lra).
  assert (Q : sqrt (21 / 10) * sqrt (21 / 10) = 21 / 10) by (apply sqrt_sqrt; lra). assert (1 < sqrt (21 / 10)) by (apply Rle_lt_trans with (sqrt 1); [rewrite sqrt_1; lra|apply sqrt_lt_1; lra]).
  split; [exact D|]. split; [lra|]. split; [apply Rmult_lt_0_compat; [exact D|apply Rinv_0_lt_compat; lra]|]. split.
  - apply Rmult_lt_reg_r with (sqrt (21 / 10)); [lra|]. unfold Rdiv at 1. rewrite Rmult_assoc, Rinv_l by lra. nra.
  - split; [|ring]. set (q := sqrt (21 / 10)) in *. rewrite <- Q. field. lra.
Qed.
Theorem C171_larger a b : 0 < a < b -> let '(d, l, i, w) := turbofan a in let '(d', l', i', w') := turbofan b in d < d' /\ l < l' /\ i < i' /\ w < w'.
Proof.
  intros [A B]. pose proof (C171_turbofan a A) as Ta. pose proof (C171_turbofan b ltac:(lra)) as Tb. cbn in *. pose proof lbf_pos as F. pose proof (Rinv_0_lt_compat _ F).
  assert (L : a / lbf < b / lbf) by (apply Rmult_lt_compat_r; assumption). assert (P : 0 < a / lbf) by (apply Rmult_lt_0_compat; assumption).
  pose proof (P_Friction.pw_less (a / lbf) (b / lbf) (4134 / 10000) ltac:(lra) L ltac:(lra)). pose proof (P_Friction.pw_less (a / lbf) (b / lbf) (3876 / 10000) ltac:(lra) L ltac:(lra)).
  set (x := pw (a / lbf) (4134 / 10000)) in *. set (y := pw (a / lbf) (3876 / 10000)) in *. set (x' := pw (b / lbf) (4134 / 10000)) in *. set (y' := pw (b / lbf) (3876 / 10000)) in *.
  assert (1 < sqrt (21 / 10)) by (apply Rle_lt_trans with (sqrt 1); [rewrite sqrt_1; lra|apply sqrt_lt_1; lra]).
  split; [lra|]. split; [lra|]. split; [apply Rmult_lt_compat_r; [apply Rinv_0_lt_compat; lra|lra]|].
  destruct Ta as (P1 & P2 & _ & _ & _ & _), Tb as (Q1 & Q2 & _ & _ & _ & _). rewrite !Rmult_assoc. apply Rmult_lt_compat_l; [lra|]. apply Rmult_lt_compat_l; [apply PI_RGT_0|].
  assert (x * y < x' * y') by (apply Rmult_gt_0_lt_compat; lra). lra.
Qed.
(** thrust k times as large: diameter by k^0.4134, length by k^0.3876 *)
Theorem C171_power k thrust : 0 < k -> 0 < thrust -> let '(d, l, i, w) := turbofan thrust in let '(d', l', i', w') := turbofan (k * thrust) in
  d' = Rpower k (4134 / 10000) * d /\ l' = Rpower k (3876 / 10000) * l /\ i' = Rpower k (4134 / 10000) * i /\ w' = Rpower k (801 / 1000) * w.
Proof.
  intros K T. cbn. pose proof lbf_pos as F. assert (P : 0 < thrust / lbf) by (apply Rmult_lt_0_compat; [exact T|now apply Rinv_0_lt_compat]).
  replace (k * thrust / lbf) with (k * (thrust / lbf)) by (unfold Rdiv; ring). assert (P' : 0 < k * (thrust / lbf)) by (apply Rmult_lt_0_compat; assumption).
  rewrite !P_Super.pw_pos by assumption. rewrite !Rpower_mult_distr' by assumption. replace (801 / 1000) with (4134 / 10000 + 3876 / 10000) by field. rewrite Rpower_plus.
  repeat split; try ring. unfold Rdiv. ring.
Qed.
Example C171_case : let '(d, l, i, w) := turbofan 100000 in 0 < i < d /\ 0 < w.
Proof.
  pose proof (C171_turbofan 100000 ltac:(lra)) as H. destruct (turbofan 100000) as [[[d l] i] w]. destruct H as (D & L & I & J & _ & ->). split; [lra|]. pose proof PI_RGT_0.
  apply Rmult_lt_0_compat; [lra|]. apply Rmult_lt_0_compat; [apply Rmult_lt_0_compat; lra|lra].
Qed.
Print Assumptions C169_sized.
Print Assumptions C169_given.
Print Assumptions C169_clamp_refuted.
Print Assumptions C169_again.
Print Assumptions C169_again_refuted.
Print Assumptions C169_round.
Print Assumptions C169_oval.
Print Assumptions C169_turned.
Print Assumptions C169_scaling.
Print Assumptions C170_bodies.
Print Assumptions C170_round_trip.
Print Assumptions C170_engines.
Print Assumptions C170_engines_refuted.
Print Assumptions C170_errors.
Print Assumptions C171_horizontal.
Print Assumptions C171_vertical.
Print Assumptions C171_fuel.
Print Assumptions C171_turbofan.
Print Assumptions C171_larger.
Print Assumptions C171_power.
