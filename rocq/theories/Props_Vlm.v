(** * The vortex lattice: theorems *)
From Coq Require Import Reals List Bool Arith Lra Psatz Lia.
From Verif Require Import PyBase M_Opt P_Opt M_Rot P_Rot S_Wing P_Deriv M_Evtol S_Elec M_Vlm S_Rot S_Vlm P_Rotor P_Vlm P_Vlm2 P_Vlm3 P_Vlm4.
Import ListNotations.
Local Open Scope R_scope.

(** ** C117 *)
Lemma stretched_1 a : stretched 1 a = a. Proof. destruct a as [x y z]; unfold stretched; cbn. f_equal. field. Qed.
(** at rest, away from the allowances, the influence is the velocity that Biot and Savart give for a horseshoe with legs going downstream for ever *)
Theorem C117_influence_is_biot_savart : forall a b o, vy a <= vy b -> apart 1 a b o ->
  exists v, influence 0 {| b_a := a; b_b := b |} o = Some v /\ biot_savart a b o v.
Proof.
  intros a b o Hy HA. assert (S1 : sqrt (1 - 0 * 0) = 1) by (replace (1 - 0 * 0) with 1 by ring; apply sqrt_1).
  destruct (influence_savart 0 a b o ltac:(lra) Hy) as [v [E B]]; [rewrite S1; exact HA|]. rewrite S1, !stretched_1 in B.
  exists v. split; [exact E|]. destruct v as [x y z]. cbn [vx vy vz] in B. replace (1 * x) with x in B by ring. exact B.
Qed.
(** which end is called A does not matter *)
Theorem C117_either_end_first : forall mach a b o, vy a <> vy b -> influence mach {| b_a := a; b_b := b |} o = influence mach {| b_a := b; b_b := a |} o.
Proof. exact influence_ends. Qed.
(** only the place of the point relative to the panel matters *)
Theorem C117_same_everywhere : forall mach d p o, influence mach {| b_a := plus (b_a p) d; b_b := plus (b_b p) d |} (plus o d) = influence mach p o.
Proof. exact influence_moved. Qed.
Definition ha : v3 := V3 0 (- (1)) 0. Definition hb : v3 := V3 (1 / 2) 1 0. Definition ho : v3 := V3 1 (1 / 4) 1.
Lemma width_h : width ha hb = 2.
Proof. apply norm_of; [lra|]. unfold vdot, flattened, minus, ha, hb; cbn [vx vy vz]. lra. Qed.
Lemma norm_ge a k : 0 <= k -> k * k <= vdot a a -> k <= norm a.
Proof. intros H0 H. unfold norm. rewrite <- (sqrt_square k) by exact H0. apply sqrt_le_1_alt. exact H. Qed.
Lemma apart_h beta : 0 < beta <= 1 -> apart beta ha hb ho.
Proof.
  intro B. constructor; rewrite ?width_h.
  - lra.
  - apply norm_ge; [lra|]. unfold vdot, flattened, minus, ha, ho; cbn [vx vy vz]. lra.
  - apply norm_ge; [lra|]. unfold vdot, flattened, minus, hb, ho; cbn [vx vy vz]. lra.
  - eapply Rle_trans with (beta * (1 / 250 / beta)); [right; field; lra|]. apply Rmult_le_compat_l; [lra|]. apply norm_ge; [apply Rlt_le, Rdiv_lt_0_compat; lra|].
    unfold vdot, cross, stretched, minus, ha, hb, ho; cbn [vx vy vz].
    replace (1 / 250 / beta * (1 / 250 / beta)) with (1 / 62500 * (/ beta * / beta)) by (field; lra).
    match goal with |- _ <= ?x => replace x with (4 + (1 / 4 + (11 / 8) * (11 / 8)) * (/ beta * / beta)) by (field; lra) end. assert (0 < / beta) by (apply Rinv_0_lt_compat; lra). nra.
  - right. unfold vdot, cross, minus, e_x, ha, hb, ho; cbn [vx vy vz]. rewrite Rabs_right by lra. lra.
Qed.
Example C117_example : exists v, influence 0 {| b_a := ha; b_b := hb |} ho = Some v /\ biot_savart ha hb ho v.
Proof. apply C117_influence_is_biot_savart; [unfold ha, hb; cbn; lra|apply apart_h; lra]. Qed.

(** ** C118 *)
(** below the speed of sound the influence follows Prandtl and Glauert: the flow direction stretched by 1/beta, the component along it divided by beta *)
Theorem C118_prandtl_glauert : forall mach a b o, 0 <= mach < 1 -> vy a <= vy b ->
  let beta := sqrt (1 - mach * mach) in apart beta a b o ->
  exists v, influence mach {| b_a := a; b_b := b |} o = Some v /\
    biot_savart (stretched beta a) (stretched beta b) (stretched beta o) (V3 (beta * vx v) (vy v) (vz v)).
Proof. exact influence_savart. Qed.
(** left and right: the mirrored panel has the mirrored influence at the mirrored point, at every Mach number *)
Theorem C118_left_and_right : forall mach p o, vy (b_a p) <> vy (b_b p) -> influence mach (mirrored p) (mirror o) = option_map mirror (influence mach p o).
Proof. exact influence_mirror. Qed.
Example C118_example : exists v, influence (3 / 5) {| b_a := ha; b_b := hb |} ho = Some v /\ influence (3 / 5) (mirrored {| b_a := ha; b_b := hb |}) (mirror ho) = Some (mirror v).
Proof.
  assert (S : sqrt (1 - 3 / 5 * (3 / 5)) = 4 / 5) by (replace (1 - 3 / 5 * (3 / 5)) with (4 / 5 * (4 / 5)) by field; apply sqrt_square; lra).
  destruct (C118_prandtl_glauert (3 / 5) ha hb ho) as [v [E _]]; [lra|unfold ha, hb; cbn; lra|rewrite S; apply apart_h; lra|].
  exists v. split; [exact E|]. rewrite C118_left_and_right by (unfold ha, hb; cbn; lra). rewrite E. reflexivity.
Qed.

(** ** C119 *)
(** at supersonic speed a panel does not act outside the Mach cones that open downstream from its ends *)
Theorem C119_nothing_ahead_of_the_cones : forall mach a b o, 1 <= mach -> vy a <= vy b -> 0 < width a b ->
  beyond mach (width a b / 1000) a o -> beyond mach (width a b / 1000) b o -> influence mach {| b_a := a; b_b := b |} o = Some (V3 0 0 0).
Proof. exact influence_beyond. Qed.
(** nor, off its plane, in the outer part of the cones *)
Theorem C119_cones_cut_off : forall mach a b o, 1 <= mach -> vy a <= vy b -> 0 < width a b ->
  width a b * (width a b / 20) <= Rabs (vdot (cross e_x (minus b a)) (minus o a)) ->
  8 / 10 * ((vx o - vx a) * (vx o - vx a)) < (mach * mach - 1) * ((vy o - vy a) * (vy o - vy a) + (vz o - vz a) * (vz o - vz a)) ->
  8 / 10 * ((vx o - vx b) * (vx o - vx b)) < (mach * mach - 1) * ((vy o - vy b) * (vy o - vy b) + (vz o - vz b) * (vz o - vz b)) ->
  influence mach {| b_a := a; b_b := b |} o = Some (V3 0 0 0).
Proof. exact influence_narrow. Qed.
(** although such points are inside both cones *)
Theorem C119_whole_cone_refuted : exists mach a b o, 1 < mach /\ vy a < vy b /\ ~ beyond mach (width a b / 1000) a o /\ ~ beyond mach (width a b / 1000) b o /\
  influence mach {| b_a := a; b_b := b |} o = Some (V3 0 0 0).
Proof.
  exists (sqrt 2), (V3 0 (-1) 0), (V3 0 1 0), (V3 (15 / 10) 0 1).
  assert (S : sqrt 2 * sqrt 2 = 2) by (apply sqrt_sqrt; lra).
  assert (W : width (V3 0 (-1) 0) (V3 0 1 0) = 2) by (apply norm_of; [lra|]; unfold vdot, flattened, minus; cbn [vx vy vz]; lra).
  assert (M : 1 < sqrt 2) by (rewrite <- sqrt_1 at 1; apply sqrt_lt_1; lra).
  split; [exact M|]. split; [cbn; lra|]. rewrite W. unfold beyond; cbn [vx vy vz]. rewrite S. split; [intros [?|?]; lra|]. split; [intros [?|?]; lra|].
  apply influence_narrow; rewrite ?W, ?S; cbn [vx vy vz]; try lra. unfold vdot, cross, minus, e_x; cbn [vx vy vz]. rewrite Rabs_right by lra. lra.
Qed.
(** the panel's own contribution is a downwash or nothing *)
Theorem C119_own_wave : forall B2 t cox, 0 < cox -> own_wave B2 t cox <= 0 /\ (B2 <= t * t -> own_wave B2 t cox = 0) /\ (t * t < B2 -> own_wave B2 t cox < 0).
Proof.
  intros B2 t cox H. unfold own_wave. assert (I : 0 < / cox) by (apply Rinv_0_lt_compat; lra). lcase (t * t) B2.
  - assert (P : 0 < sqrt (B2 - t * t)) by (apply sqrt_lt_R0; lra). assert (- (5 / 10) * sqrt (B2 - t * t) / cox < 0) by (unfold Rdiv; assert (0 < sqrt (B2 - t * t) * / cox) by (apply Rmult_lt_0_compat; assumption); nra).
    split; [lra|]. split; [intro; exfalso; lra|auto].
  - split; [lra|]. split; [reflexivity|intro; exfalso; lra].
Qed.
(** a panel counts as transonic if and only if it has a panel ahead and one behind in its own strip and the sonic line lies between those two *)
Theorem C119_transonic_panels : forall B2 pre s post k, (k < length s)%nat ->
  let all := pre ++ s :: post in
  (nth (length (concat pre) + k) (transonic B2 (marks_first all) (marks_last all) (concat all)) false = true <-> crosses B2 s k).
Proof. exact transonic_flag. Qed.
(** row of a transonic panel: its circulation is the mean of its neighbours'; other rows stay as they were *)
Theorem C119_transonic_row : forall size flags w g i, (i < size)%nat -> (forall j, nth j flags false = true -> (0 < j)%nat /\ (S j < size)%nat) ->
  nth i flags false = true ->
  (total (map (fun c => stencil size flags w (i * size + c) * g c) (seq 0 size)) = 0 <-> g i = (g (i - 1)%nat + g (i + 1)%nat) / 2).
Proof. intros size flags w g i Hi HF F. pose proof (stencil_row size flags w g i Hi HF F) as E. unfold along in E. rewrite E. split; intro; lra. Qed.
Theorem C119_other_rows : forall size flags w i c, (i < size)%nat -> (c < size)%nat -> (forall j, nth j flags false = true -> (0 < j)%nat /\ (S j < size)%nat) ->
  nth i flags false = false -> stencil size flags w (i * size + c) = w (i * size + c)%nat.
Proof. intros. rewrite stencil_entry by assumption. rewrite H2. reflexivity. Qed.
Example C119_example : nth 3 (transonic 1 (marks_first [[0; 4]; [0; 4; 9]]) (marks_last [[0; 4]; [0; 4; 9]]) [0; 4; 0; 4; 9]) false = true
  /\ stencil 3 [false; true; false] (fun _ => 7) 4 = 2 /\ stencil 3 [false; true; false] (fun _ => 7) 5 = -1 /\ stencil 3 [false; true; false] (fun _ => 7) 6 = 7.
Proof.
  split; [|split; [reflexivity|split; reflexivity]].
  apply (C119_transonic_panels 1 [[0; 4]] [0; 4; 9] [] 1); [cbn; lia|]. unfold crosses; cbn. split; [lia|]. split; [lia|]. lra.
Qed.

(** ** C120 *)
(** the velocity that meets a point: wind, less what the rotation does to the arm, plus what propellers induce *)
Theorem C120_onset_velocity : forall f arm ind,
  onset_velocity f arm ind = plus (scaled (f_V f) (wind_of f)) (plus (scaled (-1) (cross (V3 (f_roll f) (f_pitch f) (f_yaw f)) arm)) ind)
  /\ norm (wind_of f) = 1.
Proof.
  intros f arm ind. split.
  - unfold onset_velocity, plus, scaled, cross, wind_of; cbn [vx vy vz]. f_equal; ring.
  - apply norm_of; [lra|]. pose proof (sin2_cos2 (f_alpha f)) as A. pose proof (sin2_cos2 (f_psi f)) as P. unfold Rsqr in *. unfold vdot, wind_of; cbn [vx vy vz].
    assert (S1 : sin (f_alpha f) * sin (f_alpha f) = 1 - cos (f_alpha f) * cos (f_alpha f)) by lra. assert (S2 : sin (f_psi f) * sin (f_psi f) = 1 - cos (f_psi f) * cos (f_psi f)) by lra. ring [S1 S2].
Qed.
(** the normal of a panel: a unit vector at right angles to two of its edges, not downwards *)
Theorem C120_panel_normal : forall p, cross (minus (q_b1 p) (q_a1 p)) (minus (q_a2 p) (q_a1 p)) <> V3 0 0 0 ->
  norm (unit_normal p) = 1 /\ vdot (unit_normal p) (minus (q_b1 p) (q_a1 p)) = 0 /\ vdot (unit_normal p) (minus (q_a2 p) (q_a1 p)) = 0 /\ 0 <= vz (unit_normal p).
Proof. exact unit_normal_spec. Qed.
(** with the circulations that solve a row, no flow crosses the panel - if the surface does not slope both along and across the flow, and only then *)
Theorem C120_no_flow_through : forall f arm ind cs gs p delta phi, 0 < cos delta -> 0 < cos phi ->
  cross (minus (q_b1 p) (q_a1 p)) (minus (q_a2 p) (q_a1 p)) <> V3 0 0 0 ->
  (forall e, e = minus (q_b1 p) (q_a1 p) \/ e = minus (q_a2 p) (q_a1 p) -> vz e = vx e * tan delta + vy e * tan phi) ->
  row_times (map (matrix_entry delta phi) cs) gs = rhs_normal f arm ind (unit_normal p) ->
  let u := scaled (/ f_V f) (onset_velocity f arm ind) in
  vdot (plus u (induced cs gs)) (unit_normal p) = 0 <-> sin delta = 0 \/ sin phi = 0 \/ vdot u (unit_normal p) = 0.
Proof.
  intros f arm ind cs gs p delta phi Cd Cp HN HS HR u. rewrite (unit_normal_slopes p delta phi HN HS) in *.
  assert (HR' : row_times (map (matrix_entry delta phi) cs) gs = vdot u (surface_normal delta phi)) by exact HR.
  rewrite (tangency delta phi cs gs u Cd Cp HR'). pose proof (shrink_one delta phi Cd Cp) as K. split.
  - intro E. apply Rmult_integral in E. destruct E as [E|E]; [apply K in E; tauto|tauto].
  - intros [Z|[Z|Z]]; [rewrite (proj2 K (or_introl Z)); ring|rewrite (proj2 K (or_intror Z)); ring|rewrite Z; ring].
Qed.
(** the flow left over otherwise *)
Theorem C120_flow_left_over : forall f arm ind cs gs p delta phi, 0 < cos delta -> 0 < cos phi ->
  cross (minus (q_b1 p) (q_a1 p)) (minus (q_a2 p) (q_a1 p)) <> V3 0 0 0 ->
  (forall e, e = minus (q_b1 p) (q_a1 p) \/ e = minus (q_a2 p) (q_a1 p) -> vz e = vx e * tan delta + vy e * tan phi) ->
  row_times (map (matrix_entry delta phi) cs) gs = rhs_normal f arm ind (unit_normal p) ->
  let u := scaled (/ f_V f) (onset_velocity f arm ind) in
  vdot (plus u (induced cs gs)) (unit_normal p) = (1 - / sqrt (1 - (sin delta * sin phi) * (sin delta * sin phi))) * vdot u (unit_normal p).
Proof.
  intros f arm ind cs gs p delta phi Cd Cp HN HS HR u. rewrite (unit_normal_slopes p delta phi HN HS) in *. exact (tangency delta phi cs gs u Cd Cp HR).
Qed.
(** component along the panel's normal across the flow, for panels that do not fall towards their outer ends *)
Theorem C120_normal_component : forall mach i j o, dihedral i -> dihedral j -> influence_normal mach i j o = option_map (fun v => vdot v (across i)) (influence mach j o).
Proof. exact influence_normal_dihedral. Qed.
(** with falling panels it is another component *)
Theorem C120_falling_panels : forall mach i j o, vy (b_a i) < vy (b_b i) -> vz (b_a i) = vz (b_b i) -> vy (b_a j) < vy (b_b j) -> vz (b_b j) < vz (b_a j) ->
  let dy := vy (b_b j) - vy (b_a j) in let dz := vz (b_b j) - vz (b_a j) in
  influence_normal mach i j o = option_map (fun v => vz v - 2 * dz * (vy v * dy + vz v * dz) / (dy * dy + dz * dz)) (influence mach j o).
Proof. exact influence_normal_falling. Qed.
Definition flat_panel : bound := {| b_a := V3 0 0 0; b_b := V3 0 1 0 |}.
Theorem C120_falling_panels_refuted : exists i j o v, influence 0 j o = Some v /\ influence_normal 0 i j o <> Some (vdot v (across i)).
Proof.
  destruct falling_witness as [v [E N]]. exists flat_panel, wj, (V3 0 2 0), v. split; [exact E|].
  rewrite C120_falling_panels by (unfold flat_panel, wj; cbn; lra). rewrite E. cbn [option_map]. unfold wj, flat_panel; cbn [b_a b_b vx vy vz].
  assert (A : across {| b_a := V3 0 0 0; b_b := V3 0 1 0 |} = V3 0 0 1).
  { unfold across, ordered; cbn [b_a b_b vy]. rewrite (proj2 (Rltb_false 1 0)) by lra. cbn [b_a b_b vx vy vz].
    assert (W : width (V3 0 0 0) (V3 0 1 0) = 1) by (apply norm_of; [lra|]; unfold vdot, flattened, minus; cbn [vx vy vz]; lra). rewrite W. unfold scaled; cbn [vx vy vz]. f_equal; field. }
  rewrite A. unfold vdot; cbn [vx vy vz]. intro K. apply N. assert (K' : forall x y : R, Some x = Some y -> x = y) by (intros x y [=]; assumption). apply K' in K. lra.
Qed.
(** the sines and cosines of VORLAX's condition belong to one angle only for flat panels *)
Theorem C120_vorlax_slopes : forall slope, scntl slope * scntl slope + ccntl slope * ccntl slope = 1 <-> slope = 0.
Proof.
  intro s. unfold scntl, ccntl, scntl. assert (P : 0 < 1 + s * s) by nra. pose proof (sqrt_lt_R0 _ P) as Q. pose proof (sqrt_sqrt _ (Rlt_le _ _ P)) as QQ. set (q := sqrt (1 + s * s)) in *.
  assert (E1 : s / q * (s / q) = s * s / (1 + s * s)) by (rewrite <- QQ; field; lra). rewrite E1.
  set (x := s * s / (1 + s * s)). assert (X0 : 0 <= x) by (apply Rmult_le_pos; [nra|left; apply Rinv_0_lt_compat; lra]).
  assert (P2 : 0 < 1 + x) by lra. pose proof (sqrt_lt_R0 _ P2) as R0. pose proof (sqrt_sqrt _ (Rlt_le _ _ P2)) as RR. set (r := sqrt (1 + x)) in *.
  assert (E2 : 1 / r * (1 / r) = / (1 + x)) by (rewrite <- RR; field; lra). rewrite E2. split.
  - intro H. assert (K : x * x = 0) by (assert (x + / (1 + x) - 1 = x * x / (1 + x)) by (field; lra); assert (KK : x * x / (1 + x) = 0) by lra; apply (Rmult_eq_reg_r (/ (1 + x))); [unfold Rdiv in KK; lra|apply Rinv_neq_0_compat; lra]).
    assert (X1 : x = 0) by nra. assert (s * s = 0) by (replace (s * s) with (x * (1 + s * s)) by (unfold x; field; lra); rewrite X1; ring). nra.
  - intro Z. unfold x. rewrite Z. field.
Qed.
(** slipstreams: of the first network its propellers and its lift rotors, nothing of the others *)
Theorem C120_one_network : forall n, slipstream_total true [n] = plus (match n_props n with Some l => fold_left plus l (V3 0 0 0) | None => V3 0 0 0 end) (match n_rotors n with Some l => fold_left plus l (V3 0 0 0) | None => V3 0 0 0 end).
Proof.
  intro n. unfold slipstream_total, vsum3. change vmore with plus. set (a := match n_props n with Some _ => _ | None => _ end). set (b := match n_rotors n with Some _ => _ | None => _ end).
  unfold plus; cbn [vx vy vz]. f_equal; ring.
Qed.
Theorem C120_all_networks_refuted : exists a b, slipstream_total true [a; b] = slipstream_total true [a] /\ slipstream_total true [b] <> V3 0 0 0.
Proof.
  exists {| n_props := Some [V3 1 0 0]; n_rotors := None |}, {| n_props := Some [V3 2 0 0]; n_rotors := None |}. split; [reflexivity|].
  rewrite C120_one_network. intro E. apply (f_equal vx) in E. cbn in E. lra.
Qed.
Definition fl : flight := {| f_V := 10; f_alpha := 0; f_psi := 0; f_pitch := 0; f_roll := 0; f_yaw := 0 |}.
Definition fp : panel := {| q_a1 := V3 0 0 0; q_b1 := V3 0 1 0; q_a2 := V3 1 0 0; q_b2 := V3 1 1 0 |}.
Example C120_example : cross (minus (q_b1 fp) (q_a1 fp)) (minus (q_a2 fp) (q_a1 fp)) <> V3 0 0 0 /\ dihedral flat_panel
  /\ (forall e, e = minus (q_b1 fp) (q_a1 fp) \/ e = minus (q_a2 fp) (q_a1 fp) -> vz e = vx e * tan 0 + vy e * tan 0) /\ 0 < cos 0.
Proof.
  split; [intro E; apply (f_equal vz) in E; cbn in E; lra|]. split.
  - split; [rewrite width_hyp; apply hyp_right; cbn; lra|cbn; split; [lra|intro; lra]].
  - split; [|rewrite cos_0; lra]. rewrite tan_0. intros e [->| ->]; cbn; ring.
Qed.

(** ** C121 *)
(** arrays over all panels: sums inside each strip, circulation ahead of each panel, sums of strips *)
Theorem C121_sums_stay_in_their_strip : forall strips, Forall (fun s => s <> []) strips ->
  strip_cumsum (concat strips) (starts 0 strips) (map (@length R) strips) = concat (map (running 0) strips)
  /\ gant (concat strips) (starts 0 strips) (map (@length R) strips) (marks_first strips) = concat (map (ahead 0) strips)
  /\ reduceat (concat strips) (starts 0 strips) = map total strips.
Proof. intros strips H. split; [apply strip_cumsum_spec; exact H|]. split; [apply gant_spec; exact H|apply reduceat_spec; exact H]. Qed.
(** without sideslip the force on a strip is the one of Kutta and Joukowski, however many panels share it *)
Theorem C121_kutta_joukowski : forall f s, f_psi f = 0 -> p_chord s <> 0 -> p_panels s <> [] ->
  normal_force f s * p_chord s = 2 * total (map (fun l => l_gamma l * (cos (f_alpha f) + l_onset l)) (p_panels s)).
Proof. intros f s H Hc Hp. apply normal_force_kutta; try assumption; rewrite H; [apply sin_0|apply cos_0]. Qed.
(** its moment about the first load point: the loads times their distances downstream *)
Theorem C121_nose_moment : forall f s, p_panels s <> [] -> let n := length (p_panels s) in
  nose_moment f s = - total (map2 (fun (k : nat) dcp => INR k / INR n * (dcp / INR n)) (seq 0 n) (strip_pressures f s)).
Proof.
  intros f s Hp n. rewrite nose_moment_arms by exact Hp. fold n. do 2 f_equal.
  assert (G : forall (a : list nat) b, map2 (fun (k : nat) dcp => INR k / INR n * sinf (INR n) dcp) a b = map2 (fun (k : nat) dcp => INR k / INR n * (dcp / INR n)) a b).
  { induction a as [|x a IH]; intros [|y b]; cbn [map2]; try reflexivity. rewrite IH. f_equal. unfold sinf. unfold Rdiv. field_simplify_eq; [reflexivity|]. unfold n. apply not_0_INR. destruct (p_panels s); [contradiction|discriminate]. }
  apply G.
Qed.
(** turning forces and moments into wind axes changes neither their sizes nor the angle between them *)
Theorem C121_axes_turn : forall f xb zb s, let r := strip_loads f xb zb s in let k := p_es s * p_chord s in
  r_lift r * r_lift r + r_drag r * r_drag r + r_fy r * r_fy r = k * k * (cnc f s * cnc f s + caxl f s * caxl f s)
  /\ r_roll r * r_roll r + r_moment r * r_moment r + r_yaw r * r_yaw r = k * k * vdot (body_moment f xb zb s) (body_moment f xb zb s)
  /\ r_drag r * r_roll r + r_fy r * r_moment r + r_lift r * r_yaw r = k * k * vdot (body_force f s) (body_moment f xb zb s).
Proof.
  intros f xb zb s r k. destruct (strip_loads_wind f xb zb s) as [F M]. fold r k in F, M.
  split; [|split].
  - rewrite <- body_force_size, <- (to_wind_inner f). transitivity (vdot (V3 (r_drag r) (r_fy r) (r_lift r)) (V3 (r_drag r) (r_fy r) (r_lift r))); [unfold vdot; cbn [vx vy vz]; ring|]. rewrite F, vdot_scaled, vdot_scaled_r. ring.
  - rewrite <- (to_wind_inner f). transitivity (vdot (V3 (r_roll r) (r_moment r) (r_yaw r)) (V3 (r_roll r) (r_moment r) (r_yaw r))); [unfold vdot; cbn [vx vy vz]; ring|]. rewrite M, vdot_scaled, vdot_scaled_r. ring.
  - rewrite <- (to_wind_inner f). transitivity (vdot (V3 (r_drag r) (r_fy r) (r_lift r)) (V3 (r_roll r) (r_moment r) (r_yaw r))); [unfold vdot; cbn [vx vy vz]; ring|]. rewrite F, M, vdot_scaled, vdot_scaled_r. ring.
Qed.
(** level flight without sideslip or incidence: body axes are wind axes *)
Theorem C121_axes_agree : forall f xb zb s, f_alpha f = 0 -> f_psi f = 0 -> let r := strip_loads f xb zb s in let k := p_es s * p_chord s in
  V3 (r_drag r) (r_fy r) (r_lift r) = scaled k (body_force f s) /\ V3 (r_roll r) (r_moment r) (r_yaw r) = scaled k (body_moment f xb zb s).
Proof.
  intros f xb zb s Ha Hp r k. destruct (strip_loads_wind f xb zb s) as [F M]. fold r k in F, M. rewrite F, M. unfold to_wind. rewrite Ha, Hp, sin_0, cos_0. set (b := body_force f s). set (m := body_moment f xb zb s).
  unfold scaled; cbn [vx vy vz]. split; f_equal; ring.
Qed.
(** incidence alone turns lift and drag in the plane of symmetry *)
Theorem C121_lift_and_drag : forall f xb zb s, f_psi f = 0 -> let r := strip_loads f xb zb s in let k := p_es s * p_chord s in
  r_lift r = k * (vz (body_force f s) * cos (f_alpha f) - vx (body_force f s) * sin (f_alpha f)) /\ r_drag r = k * (vx (body_force f s) * cos (f_alpha f) + vz (body_force f s) * sin (f_alpha f)).
Proof. intros f xb zb s Hp. cbn zeta. unfold strip_loads. cbn zeta. cbn [r_lift r_drag]. rewrite Hp, sin_0, cos_0. set (b := body_force f s). split; ring. Qed.
(** moving the moment centre changes the moment by arm times force *)
Theorem C121_moment_centre : forall f xb zb dx dz s, body_moment f (xb + dx) (zb + dz) s = minus (body_moment f xb zb s) (cross (V3 dx 0 dz) (body_force f s)).
Proof. exact body_moment_shift. Qed.
(** a symmetric wing without sideslip feels no side force, roll or yaw; the halves carry equal lift *)
Theorem C121_symmetric_wing : forall f xb zb sref cbar span surf breaks half, f_psi f = 0 ->
  let t := totals f xb zb sref cbar span surf breaks (half ++ map other_side half) in
  v_CY t = 0 /\ v_CR t = 0 /\ v_CRM t = 0 /\ v_CN t = 0 /\ v_CYM t = 0
  /\ v_CL t = 2 * total (map r_lift (map (strip_loads f xb zb) half)) / sref /\ v_CDi t = 2 * total (map r_drag (map (strip_loads f xb zb) half)) / sref.
Proof.
  intros f xb zb sref cbar span surf breaks half Hp. assert (HS : sin (f_psi f) = 0) by (rewrite Hp; apply sin_0). unfold totals. cbn zeta. cbn [v_CY v_CR v_CRM v_CN v_CYM v_CL v_CDi].
  assert (Z : forall g : wind_loads -> R, (forall s, g (strip_loads f xb zb (other_side s)) = - g (strip_loads f xb zb s)) -> total (map g (map (strip_loads f xb zb) (half ++ map other_side half))) = 0).
  { intros g H. rewrite map_map. apply (total_opposite (fun s => g (strip_loads f xb zb s)) other_side). intros; apply H. }
  assert (D : forall g : wind_loads -> R, (forall s, g (strip_loads f xb zb (other_side s)) = g (strip_loads f xb zb s)) -> total (map g (map (strip_loads f xb zb) (half ++ map other_side half))) = 2 * total (map g (map (strip_loads f xb zb) half))).
  { intros g H. rewrite !map_app, total_app, !map_map. rewrite (map_ext (fun x => g (strip_loads f xb zb (other_side x))) (fun x => g (strip_loads f xb zb x))) by exact H. ring. }
  rewrite !Z by (intro s; destruct (other_loads f xb zb s HS) as (? & ? & ? & ? & ? & ?); assumption).
  rewrite !D by (intro s; destruct (other_loads f xb zb s HS) as (? & ? & ? & ? & ? & ?); assumption).
  unfold Rdiv. repeat split; ring.
Qed.
(** coefficients of the wings, weighted with their areas, add up to the coefficients of the aircraft *)
Theorem C121_wings_add_up : forall f xb zb sref cbar span surf (wings : list (list strip)), sref <> 0 -> Forall (fun w => w <> []) wings -> length surf = length wings -> Forall (fun a => a <> 0) surf ->
  let t := totals f xb zb sref cbar span surf (starts 0 (map (map (fun _ => 0)) wings)) (concat wings) in
  v_CL t * sref = total (map2 Rmult (v_CL_wing t) surf) /\ v_CDi t * sref = total (map2 Rmult (v_CDi_wing t) surf).
Proof. exact totals_wings. Qed.
(** leading-edge suction pulls, along a unit vector, and vanishes if the user switches it off *)
Theorem C121_suction : forall f s, 0 <= p_stb s -> 0 <= suction f s /\ (p_stb s = 0 -> suction f s = 0 /\ caxl f s = axial_force f s /\ cnc f s = normal_force f s)
  /\ ((p_spc s < 0 -> hd 0 (strip_pressures f s) <> 0) -> fst (suction_way f s) * fst (suction_way f s) + snd (suction_way f s) * snd (suction_way f s) = 1).
Proof.
  intros f s H. split; [apply suction_nonneg; exact H|]. split; [|apply suction_way_unit].
  intro Z. assert (E : suction f s = 0) by (unfold suction; cbn zeta; rewrite Z; ring). split; [exact E|]. unfold caxl, cnc. rewrite E. split; ring.
Qed.
(** it pulls forwards along the mean line's slope at an unswept nose: in the plane of the strip its force is that size, against the slope's direction *)
Theorem C121_suction_pulls : forall f s l r, p_panels s = l :: r -> p_tle s = 0 -> 0 <= p_spc s ->
  body_force f s = plus (V3 (- normal_force f s * sin (p_zeta s) + axial_force f s * cos (p_zeta s))
                            (- (normal_force f s * cos (p_zeta s) + axial_force f s * sin (p_zeta s)) * sin (p_phi s))
                            ((normal_force f s * cos (p_zeta s) + axial_force f s * sin (p_zeta s)) * cos (p_phi s)))
                        (scaled (- suction f s) (V3 (cos (l_slope l)) (- sin (l_slope l) * sin (p_phi s)) (sin (l_slope l) * cos (p_phi s)))).
Proof.
  intros f s l r HP HT HS. unfold body_force, caxl, cnc. assert (W : suction_way f s = (cos (l_slope l - p_zeta s), - sin (l_slope l - p_zeta s))).
  { unfold suction_way. rewrite HP. cbn [hd]. replace (Rltb (p_spc s) 0) with false by (symmetry; apply Rltb_false; lra). reflexivity. }
  rewrite W, HT. cbn [fst snd]. replace (1 + 0 * 0) with 1 by ring. rewrite sqrt_1.
  pose proof (cos_plus (l_slope l - p_zeta s) (p_zeta s)) as C. pose proof (sin_plus (l_slope l - p_zeta s) (p_zeta s)) as S.
  replace (l_slope l - p_zeta s + p_zeta s) with (l_slope l) in C, S by ring. rewrite C, S.
  unfold plus, scaled; cbn [vx vy vz]. f_equal; ring.
Qed.
(** the speed that carries a panel's circulation is the onset velocity's part along the body, over the flight speed *)
Theorem C121_carrying_speed : forall f arm, f_V f <> 0 -> cos (f_alpha f) * cos (f_psi f) + onset f arm = vx (onset_velocity f arm (V3 0 0 0)) / f_V f.
Proof. intros f arm H. unfold onset, onset_velocity; cbn [vx]. field. exact H. Qed.
Definition one_strip : strip := {| p_chord := 2; p_panels := [{| l_gamma := 1; l_onset := 0; l_slope := 0; l_x := 0; l_xte := 1 |}; {| l_gamma := 1 / 2; l_onset := 0; l_slope := 0; l_x := 1; l_xte := 1 |}];
  p_tle := 0; p_tte := 0; p_cosdl := 1; p_zeta := 0; p_phi := 0; p_at := V3 0 1 0; p_es := 1; p_cle := 0; p_stb := 0; p_spc := 0 |}.
Example C121_example : normal_force fl one_strip = 3 / 2 /\ reduceat [1; 2; 3] (starts 0 [[1; 2]; [3]]) = [3; 3] /\ gant [1; 2; 3] [0; 2]%nat [2; 1]%nat [true; false; true] = [0; 1; 0].
Proof.
  split; [|split].
  - assert (K : normal_force fl one_strip * 2 = 2 * total (map (fun l => l_gamma l * (cos (f_alpha fl) + l_onset l)) (p_panels one_strip))) by (apply (C121_kutta_joukowski fl one_strip); [reflexivity|cbn; lra|discriminate]).
    unfold total in K; cbn [one_strip fl p_panels map fold_right l_gamma l_onset f_alpha] in K. rewrite cos_0 in K. lra.
  - change [1; 2; 3] with (concat [[1; 2]; [3]]). destruct (C121_sums_stay_in_their_strip [[1; 2]; [3]]) as [_ [_ E]]; [repeat constructor; discriminate|]. rewrite E. cbn. f_equal; [ring|f_equal; ring].
  - destruct (C121_sums_stay_in_their_strip [[1; 2]; [3]]) as [_ [E _]]; [repeat constructor; discriminate|]. cbn in E. cbn. rewrite E. f_equal. f_equal. ring.
Qed.

(** ** C122 *)
Definition candidate (ws : list wing_ref) (w : wing_ref) : Prop := In w ws /\ w_vertical w = false.
Lemma mac_fold ws : (forall w, In w ws -> 0 <= w_mac w) -> forall seen c sp x z,
  ((z = None /\ c = 0 /\ sp = 0 /\ x = 0 /\ forall w, ~ candidate seen w) \/ exists w, candidate seen w /\ c = w_mac w /\ sp = w_span w /\ x = w_x w /\ z = Some (w_z w) /\ forall v, candidate seen v -> w_mac v <= c) ->
  let '(c', sp', x', z') := fold_left (fun '(c, sp, x, z) w => if w_vertical w then (c, sp, x, z) else if Rltb (w_mac w) c then (c, sp, x, z) else (w_mac w, w_span w, w_x w, Some (w_z w))) ws (c, sp, x, z) in
  (z' = None /\ c' = 0 /\ sp' = 0 /\ x' = 0 /\ forall w, ~ candidate (seen ++ ws) w) \/ exists w, candidate (seen ++ ws) w /\ c' = w_mac w /\ sp' = w_span w /\ x' = w_x w /\ z' = Some (w_z w) /\ forall v, candidate (seen ++ ws) v -> w_mac v <= c'.
Proof.
  induction ws as [|a ws IH]; intros H0 seen c sp x z HI; [cbn [fold_left]; rewrite app_nil_r; exact HI|]. cbn [fold_left].
  assert (SPLIT : forall w, candidate (seen ++ [a]) w <-> candidate seen w \/ (w = a /\ w_vertical a = false)).
  { intro w. unfold candidate. rewrite in_app_iff. cbn [In]. split; [intros [[?|[<-|[]]] ?]; tauto|intros [[? ?]|[-> ?]]; tauto]. }
  replace (seen ++ a :: ws) with ((seen ++ [a]) ++ ws) by (rewrite <- app_assoc; reflexivity).
  destruct (w_vertical a) eqn:VA.
  - apply IH; [intros; apply H0; right; assumption|]. destruct HI as [(Z & C & S & X & N)|(w & W & C & S & X & Z & N)].
    + left. repeat split; try assumption. intros w W. apply SPLIT in W. destruct W as [W|[_ W]]; [exact (N w W)|discriminate].
    + right. exists w. split; [apply SPLIT; left; exact W|]. repeat split; try assumption. intros v V. apply SPLIT in V. destruct V as [V|[_ V]]; [exact (N v V)|discriminate].
  - lcase (w_mac a) c.
    + apply IH; [intros; apply H0; right; assumption|]. destruct HI as [(Z & C & S & X & N)|(w & W & C & S & X & Z & N)].
      * exfalso. pose proof (H0 a (or_introl eq_refl)). lra.
      * right. exists w. split; [apply SPLIT; left; exact W|]. repeat split; try assumption. intros v V. apply SPLIT in V. destruct V as [V|[-> _]]; [exact (N v V)|lra].
    + apply IH; [intros; apply H0; right; assumption|]. right. exists a. split; [apply SPLIT; right; auto|]. repeat split. intros v V. apply SPLIT in V.
      destruct V as [V|[-> _]]; [|lra]. destruct HI as [(_ & _ & _ & _ & N)|(w & W & C & _ & _ & _ & N)]; [exfalso; exact (N v V)|]. specialize (N v V). lra.
Qed.
(** reference chord, span and - without a centre of gravity - moment centre: those of the main wing *)
Theorem C122_main_wing : forall ws w xcg zcg, find w_main ws = Some w ->
  exists r, reference_of ws xcg zcg = Ok r /\ z_cbar r = w_mac w /\ z_span r = w_span w /\ (xcg <> 0 -> z_xm r = xcg /\ z_zm r = zcg) /\ (xcg = 0 -> z_xm r = w_x w /\ z_zm r = w_z w).
Proof.
  intros ws w xcg zcg H. unfold reference_of, mac_of. rewrite H. destruct (Req_EM_T xcg 0) as [Z|Z]; (eexists; split; [reflexivity|]); cbn [z_cbar z_span z_xm z_zm]; (split; [reflexivity|]); (split; [reflexivity|]); split; intro K; try contradiction; split; reflexivity.
Qed.
(** without a main wing: those of a wing, not vertical, with the largest mean chord *)
Theorem C122_largest_wing : forall ws xcg zcg, find w_main ws = None -> (forall w, In w ws -> 0 <= w_mac w) -> (exists w, In w ws /\ w_vertical w = false) ->
  exists r w, reference_of ws xcg zcg = Ok r /\ In w ws /\ w_vertical w = false /\ (forall v, In v ws -> w_vertical v = false -> w_mac v <= w_mac w) /\
    z_cbar r = w_mac w /\ z_span r = w_span w /\ (xcg <> 0 -> z_xm r = xcg /\ z_zm r = zcg) /\ (xcg = 0 -> z_xm r = w_x w /\ z_zm r = w_z w).
Proof.
  intros ws xcg zcg HM H0 [v [V1 V2]]. unfold reference_of, mac_of. rewrite HM.
  pose proof (mac_fold ws H0 [] 0 0 0 None) as K. destruct (fold_left _ ws _) as [[[c sp] x] z].
  destruct K as [(_ & _ & _ & _ & N)|(w & [W1 W2] & C & S & X & Z & N)]; [left; repeat split; intros w [[] _]|exfalso; apply (N v); split; assumption|].
  subst. destruct (Req_EM_T xcg 0) as [Q|Q]; (eexists; exists w; split; [reflexivity|]); (split; [exact W1|]); (split; [exact W2|]); (split; [intros u U1 U2; apply N; split; assumption|]); cbn [z_cbar z_span z_xm z_zm]; (split; [reflexivity|]); (split; [reflexivity|]); split; intro K; try contradiction; split; reflexivity.
Qed.
(** no wing but vertical ones: an error without a centre of gravity, else a chord of zero *)
Theorem C122_no_wing : forall ws xcg zcg, find w_main ws = None -> (forall w, In w ws -> w_vertical w = true) ->
  reference_of ws xcg zcg = if Req_EM_T xcg 0 then Err UnboundLocalError else Ok {| z_cbar := 0; z_span := 0; z_xm := xcg; z_zm := zcg |}.
Proof.
  intros ws xcg zcg HM H. unfold reference_of, mac_of. rewrite HM.
  assert (E : fold_left (fun '(c, sp, x, z) w => if w_vertical w then (c, sp, x, z) else if Rltb (w_mac w) c then (c, sp, x, z) else (w_mac w, w_span w, w_x w, Some (w_z w))) ws (0, 0, 0, None) = (0, 0, 0, None)).
  { clear HM. induction ws as [|a ws IH]; [reflexivity|]. cbn [fold_left]. rewrite (H a (or_introl eq_refl)). apply IH. intros; apply H; right; assumption. }
  rewrite E. reflexivity.
Qed.
(** a centre of gravity at x = 0 is taken for a missing one *)
Theorem C122_cg_at_the_nose_refuted : exists ws zcg r, reference_of ws 0 zcg = Ok r /\ z_xm r <> 0 /\ z_zm r <> zcg.
Proof.
  exists [{| w_main := true; w_vertical := false; w_mac := 1; w_x := 5; w_z := 2; w_span := 10 |}], 3.
  destruct (C122_main_wing [{| w_main := true; w_vertical := false; w_mac := 1; w_x := 5; w_z := 2; w_span := 10 |}] _ 0 3 eq_refl) as (r & E & _ & _ & _ & K). exists r. split; [exact E|]. destruct (K eq_refl) as [K1 K2]. rewrite K1, K2. cbn. split; lra.
Qed.
Example C122_example : exists r, reference_of [{| w_main := false; w_vertical := true; w_mac := 9; w_x := 5; w_z := 2; w_span := 10 |}; {| w_main := false; w_vertical := false; w_mac := 3; w_x := 1; w_z := 0; w_span := 20 |}] 4 1 = Ok r /\ z_cbar r = 3 /\ z_xm r = 4.
Proof.
  unfold reference_of, mac_of. cbn [find w_main fold_left w_vertical w_mac]. rewrite (proj2 (Rltb_false 3 0)) by lra. destruct (Req_EM_T 4 0) as [Z|_]; [exfalso; lra|]. eexists. split; [reflexivity|]. cbn. split; reflexivity.
Qed.
Print Assumptions C117_influence_is_biot_savart.
Print Assumptions C117_either_end_first.
Print Assumptions C117_same_everywhere.
Print Assumptions C118_prandtl_glauert.
Print Assumptions C118_left_and_right.
Print Assumptions C119_nothing_ahead_of_the_cones.
Print Assumptions C119_cones_cut_off.
Print Assumptions C119_whole_cone_refuted.
Print Assumptions C119_own_wave.
Print Assumptions C119_transonic_panels.
Print Assumptions C119_transonic_row.
Print Assumptions C119_other_rows.
Print Assumptions C120_onset_velocity.
Print Assumptions C120_panel_normal.
Print Assumptions C120_no_flow_through.
Print Assumptions C120_flow_left_over.
Print Assumptions C120_normal_component.
Print Assumptions C120_falling_panels.
Print Assumptions C120_falling_panels_refuted.
Print Assumptions C120_vorlax_slopes.
Print Assumptions C120_one_network.
Print Assumptions C120_all_networks_refuted.
Print Assumptions C121_sums_stay_in_their_strip.
Print Assumptions C121_kutta_joukowski.
Print Assumptions C121_nose_moment.
Print Assumptions C121_axes_turn.
Print Assumptions C121_axes_agree.
Print Assumptions C121_lift_and_drag.
Print Assumptions C121_moment_centre.
Print Assumptions C121_symmetric_wing.
Print Assumptions C121_wings_add_up.
Print Assumptions C121_suction.
Print Assumptions C122_main_wing.
Print Assumptions C122_largest_wing.
Print Assumptions C122_no_wing.
Print Assumptions C122_cg_at_the_nose_refuted.
Print Assumptions C121_suction_pulls.
Print Assumptions C121_carrying_speed.
