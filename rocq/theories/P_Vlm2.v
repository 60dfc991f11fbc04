(** * Vortex lattice: symmetry, supersonic cones, normals, transonic rows *)
From Coq Require Import Reals List Bool Arith Lra Psatz Lia.
From Verif Require Import PyBase M_Opt P_Opt M_Rot P_Rot S_Wing P_Deriv M_Evtol S_Elec M_Vlm S_Rot S_Vlm P_Rotor P_Vlm.
Import ListNotations.
Local Open Scope R_scope.

Lemma arctan2_cos y x : 0 < hyp x y -> cos (arctan2 y x) = x / hyp x y.
Proof. intro H. destruct (arctan2_spec y x) as [C _]. apply (Rmult_eq_reg_l (hyp x y)); [|lra]. rewrite C. field. lra. Qed.
Lemma arctan2_sin y x : 0 < hyp x y -> sin (arctan2 y x) = y / hyp x y.
Proof. intro H. destruct (arctan2_spec y x) as [_ C]. apply (Rmult_eq_reg_l (hyp x y)); [|lra]. rewrite C. field. lra. Qed.
Lemma hyp_even x y : hyp x (- y) = hyp x y. Proof. unfold hyp. f_equal. ring. Qed.
Lemma hyp_right x y : 0 < x -> 0 < hyp x y. Proof. intro. unfold hyp. apply sqrt_lt_R0. nra. Qed.

(** ** mirror *)
Definition flip (k : local) : local := {| k_cos := k_cos k; k_sin := - k_sin k; k_s := k_s k; k_t := - k_t k; k_x := k_x k; k_y := - k_y k; k_z := k_z k |}.
Lemma axes_mirrored_right a b o : vy a < vy b -> local_axes (mirrored {| b_a := a; b_b := b |}) (mirror o) = flip (local_axes {| b_a := a; b_b := b |} o).
Proof.
  intro H. unfold local_axes, ordered, mirrored, mirror; cbn [b_a b_b vx vy vz].
  rewrite (proj2 (Rltb_true (- vy b) (- vy a))) by lra. rewrite (proj2 (Rltb_false (vy b) (vy a))) by lra.
  cbn [b_a b_b vx vy vz]. cbn zeta.
  pose proof (hyp_right (vy b - vy a) (vz b - vz a) ltac:(lra)) as HH.
  assert (C : cos (arctan2 (vz a - vz b) (- vy a - - vy b)) = cos (arctan2 (vz b - vz a) (vy b - vy a))).
  { replace (- vy a - - vy b) with (vy b - vy a) by ring. replace (vz a - vz b) with (- (vz b - vz a)) by ring. rewrite !arctan2_cos by (rewrite ?hyp_even; assumption). rewrite hyp_even. reflexivity. }
  assert (S : sin (arctan2 (vz a - vz b) (- vy a - - vy b)) = - sin (arctan2 (vz b - vz a) (vy b - vy a))).
  { replace (- vy a - - vy b) with (vy b - vy a) by ring. replace (vz a - vz b) with (- (vz b - vz a)) by ring. rewrite !arctan2_sin by (rewrite ?hyp_even; assumption). rewrite hyp_even. field. lra. }
  rewrite C, S. set (c := cos _). set (s := sin _). unfold flip; cbn [k_cos k_sin k_s k_t k_x k_y k_z].
  assert (Y : (- vy a - / 2 * (- vy b + - vy a)) * c + (vz a - / 2 * (vz b + vz a)) * - s = (vy b - / 2 * (vy a + vy b)) * c + (vz b - / 2 * (vz a + vz b)) * s) by field.
  rewrite Y. f_equal; try solve [field].
  unfold Rdiv. rewrite Ropp_mult_distr_l. f_equal. field.
Qed.
Lemma flip_flip k : flip (flip k) = k.
Proof. destruct k; unfold flip; cbn. f_equal; ring. Qed.
Lemma mirror_mirror a : mirror (mirror a) = a. Proof. destruct a as [x y z]; unfold mirror; cbn. f_equal; ring. Qed.
Lemma axes_mirrored p o : vy (b_a p) <> vy (b_b p) -> local_axes (mirrored p) (mirror o) = flip (local_axes p o).
Proof.
  intro H. destruct p as [a b]; cbn [b_a b_b] in H. destruct (Rtotal_order (vy a) (vy b)) as [L|[L|L]]; [apply axes_mirrored_right; exact L|contradiction|].
  rewrite <- (flip_flip (local_axes (mirrored _) (mirror o))). f_equal.
  pose proof (axes_mirrored_right (mirror a) (mirror b) (mirror o)) as K. cbn [mirror vy] in K. specialize (K ltac:(lra)).
  unfold mirrored in K at 1; cbn [b_a b_b] in K. rewrite !mirror_mirror in K. symmetry. exact K.
Qed.
Definition side (v : v3) : v3 := V3 (vx v) (- vy v) (vz v).
Lemma flip_facts k : k_X1 (flip k) = k_X2 k /\ k_X2 (flip k) = k_X1 k /\ k_Y1 (flip k) = - k_Y2 k /\ k_Y2 (flip k) = - k_Y1 k /\ k_RTV1 (flip k) = k_RTV2 k /\ k_RTV2 (flip k) = k_RTV1 k /\ k_XTY (flip k) = k_XTY k /\ k_tol (flip k) = k_tol k /\ k_tolsq (flip k) = k_tolsq k /\ k_zsq (flip k) = k_zsq k.
Proof. unfold k_X1, k_X2, k_RTV1, k_RTV2, k_Y1, k_Y2, k_XTY, k_tolsq, k_tol, k_zsq, flip; cbn [k_cos k_sin k_s k_t k_x k_y k_z]. repeat split; ring. Qed.
Lemma subsonic_flip B2 k : subsonic B2 (flip k) = option_map side (subsonic B2 k).
Proof.
  destruct (flip_facts k) as (E1 & E2 & E3 & E4 & E5 & E6 & E7 & E8 & E9 & E10).
  unfold subsonic. rewrite E1, E2, E3, E4, E5, E6, E7, E9, E10. replace (k_s (flip k)) with (k_s k) by reflexivity. replace (k_t (flip k)) with (- k_t k) by reflexivity. replace (k_z (flip k)) with (k_z k) by reflexivity.
  cbn zeta. set (R1 := sqrt (k_X1 k * k_X1 k - _)). set (R2 := sqrt (k_X2 k * k_X2 k - _)).
  destruct (Req_EM_T (k_s k) 0); [reflexivity|]. destruct (Req_EM_T R1 0) as [|n1]; destruct (Req_EM_T R2 0) as [|n2]; try reflexivity.
  replace (- k_t k * - k_t k) with (k_t k * k_t k) by ring. set (D := if Rltb (k_XTY k * k_XTY k + _) _ then _ else _).
  set (F1 := if Rltb (k_RTV1 k) _ then _ else _). set (F2 := if Rltb (k_RTV2 k) _ then _ else _).
  cbn [option_map side vx vy vz]. unfold side; cbn [vx vy vz]. f_equal.
  f_equal.
  - destruct (Rltb (k_zsq k) (k_tolsq k)); [reflexivity|]. unfold Rdiv. ring.
  - destruct (Rltb (k_zsq k) (k_tolsq k)); [ring|]. unfold Rdiv. ring.
  - unfold Rdiv. ring.
Qed.
Lemma fore_flip B2 t X Y RTV tol tolsq : fore B2 (- t) X (- Y) RTV tol tolsq = (let '(r, b, f) := fore B2 t X Y RTV tol tolsq in (r, - b, f)).
Proof. unfold fore. cbv beta iota zeta. f_equal. f_equal. destruct (_ && _); unfold Rdiv; ring. Qed.
Lemma in_plane_flip r1 r2 Y1 Y2 tol X : in_plane r2 r1 (- Y2) (- Y1) tol X = in_plane r1 r2 Y1 Y2 tol X.
Proof.
  unfold in_plane. rewrite !Rabs_Ropp. cbn zeta. destruct (Rltb tol (Rabs X)); [|reflexivity].
  f_equal. unfold Rdiv. destruct (Rltb tol (Rabs Y1)); destruct (Rltb tol (Rabs Y2)); rewrite ?Rinv_opp; ring.
Qed.
Lemma supersonic_flip B2 k : supersonic B2 (flip k) = option_map side (supersonic B2 k).
Proof.
  destruct (flip_facts k) as (E1 & E2 & E3 & E4 & E5 & E6 & E7 & E8 & E9 & E10).
  unfold supersonic. rewrite E1, E2, E3, E4, E5, E6, E7, E8, E9, E10. replace (k_s (flip k)) with (k_s k) by reflexivity. replace (k_t (flip k)) with (- k_t k) by reflexivity. replace (k_z (flip k)) with (k_z k) by reflexivity.
  destruct (Req_EM_T (k_s k) 0); [reflexivity|]. cbn zeta. rewrite !fore_flip.
  replace (- k_t k * - k_t k) with (k_t k * k_t k) by ring.
  destruct (fore B2 (k_t k) (k_X1 k) _ _ _ _) as [[r1 fb1] ft1]. destruct (fore B2 (k_t k) (k_X2 k) _ _ _ _) as [[r2 fb2] ft2].
  set (D := if Rltb (Rabs _) _ then _ else _).
  destruct (Rltb (k_zsq k) (2500 * k_tolsq k)); cbn [option_map]; unfold side; cbn [vx vy vz].
  - rewrite in_plane_flip. f_equal. f_equal. ring.
  - f_equal. unfold Rdiv. f_equal; ring.
Qed.
Lemma influence_mirror mach p o : vy (b_a p) <> vy (b_b p) -> influence mach (mirrored p) (mirror o) = option_map mirror (influence mach p o).
Proof.
  intro H. unfold influence. rewrite (axes_mirrored p o H). cbn zeta.
  assert (E : (if Rltb (mach * mach - 1) 0 then subsonic (mach * mach - 1) (flip (local_axes p o)) else supersonic (mach * mach - 1) (flip (local_axes p o)))
            = option_map side (if Rltb (mach * mach - 1) 0 then subsonic (mach * mach - 1) (local_axes p o) else supersonic (mach * mach - 1) (local_axes p o))).
  { destruct (Rltb (mach * mach - 1) 0); [apply subsonic_flip|apply supersonic_flip]. }
  rewrite E. set (q := if Rltb _ _ then subsonic _ _ else supersonic _ _); destruct q as [v|]; [|reflexivity]. cbn [option_map]. unfold side, mirror, flip; cbn [vx vy vz k_cos k_sin]. f_equal. f_equal; ring.
Qed.
Definition moved (d : v3) (p : bound) : bound := {| b_a := plus (b_a p) d; b_b := plus (b_b p) d |}.
Lemma influence_moved mach d p o : influence mach (moved d p) (plus o d) = influence mach p o.
Proof.
  unfold influence. assert (E : local_axes (moved d p) (plus o d) = local_axes p o); [|rewrite E; reflexivity].
  unfold local_axes, moved, ordered, plus; cbn [b_a b_b vx vy vz].
  replace (Rltb (vy (b_b p) + vy d) (vy (b_a p) + vy d)) with (Rltb (vy (b_b p)) (vy (b_a p))).
  2:{ destruct (Rltb (vy (b_b p)) (vy (b_a p))) eqn:K; symmetry; [apply Rltb_true; apply Rltb_true in K; lra|apply Rltb_false; apply Rltb_false in K; lra]. }
  destruct (Rltb (vy (b_b p)) (vy (b_a p))); cbn [b_a b_b vx vy vz]; destruct p as [a b]; cbn [b_a b_b].
  - replace (vz a + vz d - (vz b + vz d)) with (vz a - vz b) by ring. replace (vy a + vy d - (vy b + vy d)) with (vy a - vy b) by ring.
    set (th := arctan2 _ _). cbn zeta. f_equal; try solve [field].
    + f_equal. field.
    + f_equal; [field|f_equal; field].
  - replace (vz b + vz d - (vz a + vz d)) with (vz b - vz a) by ring. replace (vy b + vy d - (vy a + vy d)) with (vy b - vy a) by ring.
    set (th := arctan2 _ _). cbn zeta. f_equal; try solve [field].
    + f_equal. field.
    + f_equal; [field|f_equal; field].
Qed.
Lemma influence_ends mach a b o : vy a <> vy b -> influence mach {| b_a := a; b_b := b |} o = influence mach {| b_a := b; b_b := a |} o.
Proof.
  intro H. unfold influence. assert (E0 : local_axes {| b_a := a; b_b := b |} o = local_axes {| b_a := b; b_b := a |} o); [|rewrite E0; reflexivity].
  unfold local_axes. assert (E' : ordered {| b_a := a; b_b := b |} = ordered {| b_a := b; b_b := a |}); [|rewrite E'; reflexivity].
  unfold ordered; cbn [b_a b_b]. lcase (vy b) (vy a); lcase (vy a) (vy b); try reflexivity; exfalso; lra.
Qed.

(** ** supersonic *)
Lemma fore_blind B2 t X Y RTV tol tolsq : 0 <= B2 -> 0 < tol -> (X < tol \/ X * X <= B2 * RTV) -> fore B2 t X Y RTV tol tolsq = (0, 0, 0).
Proof.
  intros HB Ht H. unfold fore. cbn zeta. lcase X tol.
  - reflexivity.
  - destruct H as [H|H]; [exfalso; lra|]. cbn [negb andb].
    assert (EE : (if Rltb (X * X) (B2 * RTV) then 0 else sqrt (X * X - B2 * RTV)) = 0).
    { clear E. lcase (X * X) (B2 * RTV); [reflexivity|]. replace (X * X - B2 * RTV) with 0 by lra. apply sqrt_0. }
    rewrite EE. destruct (Req_EM_T 0 0) as [_|N]; [reflexivity|contradiction].
Qed.
Lemma influence_beyond mach a b o : 1 <= mach -> vy a <= vy b -> 0 < width a b ->
  beyond mach (width a b / 1000) a o -> beyond mach (width a b / 1000) b o -> influence mach {| b_a := a; b_b := b |} o = Some (V3 0 0 0).
Proof.
  intros Hm Hy Hw Ba Bb. destruct (axes_of a b o Hy Hw) as [SC [Ew [Hs [Ed [Era Erb]]]]].
  unfold influence. set (k := local_axes _ o) in *. rewrite (proj2 (Rltb_false (mach * mach - 1) 0)) by nra.
  assert (SS : k_sin k * k_sin k = 1 - k_cos k * k_cos k) by lra.
  assert (T : width a b / 1000 = k_tol k) by (unfold k_tol; rewrite Ew; field).
  assert (F1 : fore (mach * mach - 1) (k_t k) (k_X1 k) (k_Y1 k) (k_RTV1 k) (k_tol k) (k_tolsq k) = (0, 0, 0)).
  { apply fore_blind; [nra|rewrite <- T; lra|]. assert (E1 : vx o - vx a = _) by exact (f_equal vx Era). assert (E2 : vy o - vy a = _) by exact (f_equal vy Era). assert (E3 : vz o - vz a = _) by exact (f_equal vz Era). cbn [vx vy vz] in E1, E2, E3. unfold beyond in Ba. rewrite E1, E2, E3, T in Ba.
    destruct Ba as [Ba|Ba]; [left; exact Ba|right]. eapply Rle_trans; [exact Ba|]. right. f_equal. unfold k_RTV1. ring [SS]. }
  assert (F2 : fore (mach * mach - 1) (k_t k) (k_X2 k) (k_Y2 k) (k_RTV2 k) (k_tol k) (k_tolsq k) = (0, 0, 0)).
  { apply fore_blind; [nra|rewrite <- T; lra|]. assert (E1 : vx o - vx b = _) by exact (f_equal vx Erb). assert (E2 : vy o - vy b = _) by exact (f_equal vy Erb). assert (E3 : vz o - vz b = _) by exact (f_equal vz Erb). cbn [vx vy vz] in E1, E2, E3. unfold beyond in Bb. rewrite E1, E2, E3, T in Bb.
    destruct Bb as [Ba'|Ba']; [left; exact Ba'|right]. eapply Rle_trans; [exact Ba'|]. right. f_equal. unfold k_RTV2. ring [SS]. }
  unfold supersonic. destruct (Req_EM_T (k_s k) 0) as [Z|_]; [exfalso; lra|]. cbn zeta. rewrite F1, F2.
  set (D := if Rltb (Rabs _) _ then _ else _).
  destruct (Rltb (k_zsq k) (2500 * k_tolsq k)); cbn [vx vy vz].
  - assert (E : in_plane 0 0 (k_Y1 k) (k_Y2 k) (k_tol k) (k_XTY k) = 0).
    { unfold in_plane. cbn zeta. destruct (Rltb _ (Rabs (k_XTY k))); [|reflexivity]. destruct (Rltb _ (Rabs (k_Y1 k))); destruct (Rltb _ (Rabs (k_Y2 k))); unfold Rdiv; ring. }
    rewrite E. f_equal. f_equal; ring.
  - f_equal. unfold Rdiv. f_equal; ring.
Qed.
Lemma fore_narrow B2 t X Y RTV tol tolsq : 8 / 10 * (X * X) < B2 * RTV -> exists r, fore B2 t X Y RTV tol tolsq = (r, 0, 0).
Proof. intros H. unfold fore. cbn zeta. rewrite (proj2 (Rltb_true _ _) H). rewrite !andb_false_r. eexists. reflexivity. Qed.
Lemma influence_narrow mach a b o : 1 <= mach -> vy a <= vy b -> 0 < width a b ->
  width a b * (width a b / 20) <= Rabs (vdot (cross e_x (minus b a)) (minus o a)) ->
  8 / 10 * ((vx o - vx a) * (vx o - vx a)) < (mach * mach - 1) * ((vy o - vy a) * (vy o - vy a) + (vz o - vz a) * (vz o - vz a)) ->
  8 / 10 * ((vx o - vx b) * (vx o - vx b)) < (mach * mach - 1) * ((vy o - vy b) * (vy o - vy b) + (vz o - vz b) * (vz o - vz b)) ->
  influence mach {| b_a := a; b_b := b |} o = Some (V3 0 0 0).
Proof.
  intros Hm Hy Hw Hz Ba Bb. destruct (axes_of a b o Hy Hw) as [SC [Ew [Hs [Ed [Era Erb]]]]].
  unfold influence. set (k := local_axes _ o) in *. rewrite (proj2 (Rltb_false (mach * mach - 1) 0)) by nra.
  assert (SS : k_sin k * k_sin k = 1 - k_cos k * k_cos k) by lra.
  assert (F1 : exists r, fore (mach * mach - 1) (k_t k) (k_X1 k) (k_Y1 k) (k_RTV1 k) (k_tol k) (k_tolsq k) = (r, 0, 0)).
  { apply fore_narrow. assert (E1 : vx o - vx a = _) by exact (f_equal vx Era). assert (E2 : vy o - vy a = _) by exact (f_equal vy Era). assert (E3 : vz o - vz a = _) by exact (f_equal vz Era). cbn [vx vy vz] in E1, E2, E3. rewrite E1, E2, E3 in Ba. eapply Rlt_le_trans; [exact Ba|]. right. f_equal. unfold k_RTV1. ring [SS]. }
  assert (F2 : exists r, fore (mach * mach - 1) (k_t k) (k_X2 k) (k_Y2 k) (k_RTV2 k) (k_tol k) (k_tolsq k) = (r, 0, 0)).
  { apply fore_narrow. assert (E1 : vx o - vx b = _) by exact (f_equal vx Erb). assert (E2 : vy o - vy b = _) by exact (f_equal vy Erb). assert (E3 : vz o - vz b = _) by exact (f_equal vz Erb). cbn [vx vy vz] in E1, E2, E3. rewrite E1, E2, E3 in Bb. eapply Rlt_le_trans; [exact Bb|]. right. f_equal. unfold k_RTV2. ring [SS]. }
  destruct F1 as [r1 F1], F2 as [r2 F2].
  unfold supersonic. destruct (Req_EM_T (k_s k) 0) as [Z|_]; [exfalso; lra|]. cbn zeta. rewrite F1, F2.
  set (D := if Rltb (Rabs _) _ then _ else _).
  rewrite (proj2 (Rltb_false (k_zsq k) (2500 * k_tolsq k))).
  - cbn [vx vy vz]. f_equal. unfold Rdiv. f_equal; ring.
  - assert (E : vdot (cross e_x (minus b a)) (minus o a) = 2 * k_s k * k_z k) by (rewrite Ed, Era; unfold vdot, cross, e_x; cbn [vx vy vz]; ring [SS]).
    rewrite E, Ew in Hz. assert (H0 : 0 <= 2 * k_s k * (2 * k_s k / 20)) by (apply Rmult_le_pos; lra).
    pose proof (sq_mono _ _ H0 Hz) as Q. rewrite <- Rabs_mult, (Rabs_right (2 * k_s k * k_z k * (2 * k_s k * k_z k))) in Q by (apply Rle_ge; pose proof (Rle_0_sqr (2 * k_s k * k_z k)) as U; unfold Rsqr in U; exact U).
    unfold k_zsq, k_tolsq, k_tol. assert (0 < 4 * (k_s k * k_s k)) by nra. apply (Rmult_le_reg_l (4 * (k_s k * k_s k))); [assumption|]. lra.
Qed.

(** ** the component used for leading-edge suction *)
Lemma width_hyp a b : width a b = hyp (vy b - vy a) (vz b - vz a).
Proof. unfold width, norm, flattened, minus, vdot, hyp; cbn [vx vy vz]. f_equal. ring. Qed.
Lemma width_sym a b : width a b = width b a.
Proof. unfold width, norm, flattened, minus, vdot; cbn [vx vy vz]. f_equal. ring. Qed.
Lemma width_sq a b : width a b * width a b = (vy b - vy a) * (vy b - vy a) + (vz b - vz a) * (vz b - vz a).
Proof. unfold width. rewrite norm_flattened_sq. reflexivity. Qed.
Lemma axes_angles p o : 0 < width (b_a p) (b_b p) ->
  let q := ordered p in k_cos (local_axes p o) = (vy (b_b q) - vy (b_a q)) / width (b_a p) (b_b p) /\ k_sin (local_axes p o) = (vz (b_b q) - vz (b_a q)) / width (b_a p) (b_b p).
Proof.
  intros H q. unfold local_axes. cbn zeta. cbn [k_cos k_sin].
  assert (E : hyp (vy (b_b q) - vy (b_a q)) (vz (b_b q) - vz (b_a q)) = width (b_a p) (b_b p)).
  { rewrite <- width_hyp. unfold q, ordered. destruct (Rltb _ _); cbn [b_a b_b]; [apply width_sym|reflexivity]. }
  unfold q in *. rewrite arctan2_cos, arctan2_sin, E by (rewrite E; exact H). split; reflexivity.
Qed.
Lemma dihedral_angle p o : dihedral p -> cos (dihedral_of p) = k_cos (local_axes p o) /\ sin (dihedral_of p) = k_sin (local_axes p o).
Proof.
  intros [Hw [Hz Hv]]. destruct (axes_angles p o Hw) as [EC ES]. rewrite EC, ES. clear EC ES.
  unfold dihedral_of. cbn zeta.
  assert (EW : sqrt ((vy (b_a p) - vy (b_b p)) * (vy (b_a p) - vy (b_b p)) + (vz (b_a p) - vz (b_b p)) * (vz (b_a p) - vz (b_b p))) = width (b_a p) (b_b p)).
  { unfold width, norm, flattened, minus, vdot; cbn [vx vy vz]. f_equal. ring. }
  rewrite EW. clear EW. pose proof (width_sq (b_a p) (b_b p)) as W2.
  set (w := width (b_a p) (b_b p)) in *. set (dy := vy (b_b p) - vy (b_a p)) in *. set (dz := vz (b_b p) - vz (b_a p)) in *.
  assert (R : -1 <= dy / w <= 1). { split; [apply frac_ge; nra|apply frac_le; nra]. }
  assert (SQ : sqrt (1 - Rsqr (dy / w)) = dz / w).
  { rewrite <- (sqrt_square (dz / w)) by (apply Rmult_le_pos; [unfold dz; lra|left; apply Rinv_0_lt_compat; lra]). f_equal. unfold Rsqr. field_simplify_eq; [|lra]. nra. }
  pose proof (cos_acos (dy / w) ltac:(lra)) as CA. pose proof (sin_acos (dy / w) ltac:(lra)) as SA. rewrite SQ in SA.
  pose proof (acos_bound (dy / w)) as AB. pose proof PI_RGT_0.
  unfold ordered. lcase (vy (b_b p)) (vy (b_a p)).
  - (* left side *)
    cbn [b_a b_b].
    assert (Hc : cos (acos (dy / w)) < 0). { rewrite CA. assert (0 < (- dy) / w) by (apply Rdiv_lt_0_compat; unfold dy; lra). unfold Rdiv in *. lra. }
    rewrite (proj2 (Rltb_true (PI / 2) (acos (dy / w)))).
    2:{ apply Rnot_le_lt. intro L. assert (0 <= cos (acos (dy / w))) by (apply cos_ge_0; lra). lra. }
    rewrite cos_minus, sin_minus, cos_PI, sin_PI, CA, SA. unfold dy, dz. split; field; lra.
  - rewrite (proj2 (Rltb_false (PI / 2) (acos (dy / w)))); [split; [exact CA|exact SA]|].
    apply Rnot_lt_le. intro L. assert (cos (acos (dy / w)) < 0) by (apply cos_lt_0; lra). rewrite CA in *.
    assert (0 <= dy / w) by (apply Rmult_le_pos; [unfold dy; lra|left; apply Rinv_0_lt_compat; lra]). lra.
Qed.
Lemma across_axes p o : 0 < width (b_a p) (b_b p) -> across p = V3 0 (- k_sin (local_axes p o)) (k_cos (local_axes p o)).
Proof.
  intro H. destruct (axes_angles p o H) as [EC ES]. rewrite EC, ES. unfold across.
  assert (E : width (b_a (ordered p)) (b_b (ordered p)) = width (b_a p) (b_b p)) by (unfold ordered; destruct (Rltb _ _); cbn [b_a b_b]; [apply width_sym|reflexivity]).
  rewrite E. unfold scaled; cbn [vx vy vz]. f_equal; field; lra.
Qed.
Lemma influence_normal_dihedral mach i j o : dihedral i -> dihedral j -> influence_normal mach i j o = option_map (fun v => vdot v (across i)) (influence mach j o).
Proof.
  intros Hi Hj. unfold influence_normal, influence. cbn zeta.
  set (q := if Rltb _ _ then subsonic _ _ else supersonic _ _); destruct q as [v|]; [|reflexivity]. cbn [option_map]. f_equal.
  rewrite (across_axes i o (proj1 Hi)). destruct (dihedral_angle i o Hi) as [Ci Si]. destruct (dihedral_angle j o Hj) as [Cj Sj].
  rewrite cos_minus, sin_minus, Ci, Si, Cj, Sj. unfold vdot; cbn [vx vy vz]. ring.
Qed.
