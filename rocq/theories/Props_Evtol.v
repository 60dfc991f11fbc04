(** * Weight build-ups for electric aircraft: properties C103 to C108 *)
From Coq Require Import Reals List Bool Arith Lra Lia Psatz.
From Verif Require Import PyBase M_Opt P_Opt M_Drag M_Elec S_Elec M_Evtol S_Evtol P_Evtol P_Evtol2.
Import ListNotations.
Local Open Scope R_scope.
Local Open Scope list_scope.

(** ** C103: loads along the span *)
Theorem C103_shear_is_the_load_outboard x L i : x <> [] -> length L = length x ->
  length (summed x L) = length x /\ nth i (summed x L) 0 = sum_range i (length x - 1) (interval_load x L).
Proof.
  intros N E. split; [apply summed_length; assumption|]. rewrite summed_nth by exact E. f_equal. lia.
Qed.
(** the bending moment takes the load of an interval at its outer end *)
Theorem C103_moment_is_load_times_arm x L i : x <> [] -> length L = length x ->
  nth i (summed x (summed x L)) 0 = sum_range i (length x - 1) (fun j => interval_load x L j * (at_ x (S j) - at_ x i)).
Proof. intros N E. rewrite moment_lever by assumption. f_equal. lia. Qed.
Theorem C103_loads_fall_towards_the_tip x L i j : outwards x -> length L = length x -> x <> [] -> (forall k, 0 <= at_ L k) -> (i <= j)%nat ->
  0 <= nth j (summed x L) 0 <= nth i (summed x L) 0 /\ 0 <= nth j (summed x (summed x L)) 0 <= nth i (summed x (summed x L)) 0 /\
  nth (length x - 1) (summed x L) 0 = 0.
Proof.
  intros O E N P IJ. split; [apply summed_falls; assumption|]. split.
  - apply summed_falls; try assumption; [apply summed_length; assumption | apply summed_at_pos; assumption].
  - rewrite summed_nth by exact E. apply sum_range_nil. lia.
Qed.
(** on every grid the root carries the design lift *)
Theorem C103_root_carries_the_design_lift x L0 : outwards x -> (1 < length x)%nat -> at_ x 0 < at_ x (length x - 1) ->
  nth 0 (summed x (elliptic_load x L0)) 0 = L0.
Proof. intros O N G. apply root_shear; [exact O | exact N|]. replace (pred (length x)) with (length x - 1)%nat by lia. exact G. Qed.
(** two halves of every wing together carry the take-off weight at the load factor *)
Theorem C103_wings_share_the_weight mtow gmax sf areas : total areas <> 0 ->
  2 * sum_over (fun a => design_lift mtow gmax sf a areas) areas = gmax * mtow * (98 / 10) * sf.
Proof.
  intros T. assert (G : forall l, sum_over (fun a => design_lift mtow gmax sf a areas) l = / 2 * gmax * mtow * (98 / 10) * (total l / total areas) * sf).
  { unfold design_lift. set (T0 := total areas) in *. induction l as [|a l IH]; [simpl; field; exact T|]. cbn [sum_over]. rewrite IH. simpl total. field. exact T. }
  rewrite G. field. exact T.
Qed.
Theorem C103_thrust_shear_counts_motors_outboard x motors thrust i : (i < length x)%nat ->
  nth i (thrust_shear x motors thrust) 0 = thrust * INR (length (filter (fun m => negb (Rltb m (at_ x i))) motors)).
Proof.
  intros I. unfold thrust_shear. rewrite map_nth_R by exact I. rewrite thrust_count. unfold at_. ring.
Qed.
Example C103_example_grid : outwards [0; 1; 2; 4] /\ at_ [0; 1; 2; 4] 0 < at_ [0; 1; 2; 4] 3 /\ total [30; 10] <> 0
  /\ nth 1 (summed [0; 1; 2; 4] [4; 3; 2; 0]) 0 = 7 /\ nth 0 (summed [0; 1; 2; 4] (summed [0; 1; 2; 4] [4; 3; 2; 0])) 0 = 26.
Proof.
  split; [intros i j H; do 4 (destruct i as [|i]; [do 4 (destruct j as [|j]; [simpl in H; try lia; unfold at_; simpl; lra|]); simpl in H; lia|]); simpl in H; lia|].
  unfold at_, summed, total. simpl. repeat split; lra.
Qed.

(** ** C104: cross-section and mass of a wing *)
(** the shoelace formula gives the trapezoidal area of the section, wherever the shear centre is, and grows with the square of the chord *)
Theorem C104_section_area toc xs c x0 x1 r : xs = x0 :: x1 :: r -> x0 = 0 -> 0 <= toc -> outwards xs -> (forall x, In x xs -> x <= 1) ->
  forall chord, shoelace (scale chord (shift c (outline (naca toc) xs))) = chord * chord * two_sided_area (naca toc) xs /\
                0 <= two_sided_area (naca toc) xs.
Proof.
  intros E X T O U chord. assert (P : 0 <= two_sided_area (naca toc) xs).
  { apply two_sided_pos; [exact O|]. intros x I. apply naca_pos; [exact T|]. split; [|apply U; exact I].
    apply (In_nth _ _ 0) in I. destruct I as (n & N & <-). destruct (O n n ltac:(lia)) as [A _]. exact A. }
  split; [|exact P]. rewrite shoelace_scale, shoelace_shift. f_equal. unfold shoelace. subst xs x0. rewrite outline_crosses by apply naca_0.
  rewrite Rabs_left1 by lra. lra.
Qed.
Theorem C104_skin_length chord c h xs : 0 <= chord -> polyline (scale chord (shift c (outline h xs))) = chord * polyline (outline h xs).
Proof. intros C. rewrite polyline_scale by exact C. rewrite polyline_shift. reflexivity. Qed.
(** the section has thickness from the leading edge, where it is closed, to the trailing edge, where a gap of 2.1 percent of the thickness stays *)
Theorem C104_section_thickness toc x : 0 <= toc -> 0 <= x <= 1 -> 0 <= naca toc x /\ naca toc 0 = 0 /\ 2 * naca toc 1 = 21 / 1000 * toc.
Proof.
  intros T X. split; [apply naca_pos; assumption|]. split; [apply naca_0|]. unfold naca. rewrite sqrt_1. field.
Qed.
Theorem C104_wing_mass_grows y k x motors L0 L1 chord cmocl lod t t' grace : sound_materials y k -> outwards x -> x <> [] ->
  0 <= chord -> 0 <= cmocl -> 0 < lod -> 0 <= grace -> L0 <= L1 -> t <= t' ->
  wing_mass y k x motors L0 chord cmocl lod t grace <= wing_mass y k x motors L1 chord cmocl lod t' grace.
Proof. apply wing_mass_grows. Qed.
(** without load the wing is at minimum gauge: a mass per unit of half span and a mass per rib, on every grid *)
Theorem C104_unloaded_wing y k x motors chord cmocl lod grace : x <> [] ->
  wing_mass y k x motors 0 chord cmocl lod 0 grace =
  2 * grace * (station_mass y k 0 0 0 0 0 * (at_ x (length x - 1) - at_ x 0) + (INR (length motors) + 2) * ((k_area k + k_skin k * y_rib_wid y) * y_rib_mgt y * y_rib_den y)).
Proof.
  intros N. rewrite unloaded by exact N. replace (pred (length x)) with (length x - 1)%nat by lia. rewrite plus_INR. change (INR 2) with (1 + 1). ring.
Qed.
(** the caps and the web are stressed exactly to their strength, unless the web is at its least thickness *)
Theorem C104_caps_and_web_carry_the_load y k mx vz : sound_materials y k -> 0 < mx -> 0 < k_zmax k ->
  let cap := mx * k_zmax k / (k_flap_inertia k * y_bend_uts y) in let web := Rmax (3 / 2 * vz / (y_shear_uss y * k_height k)) (y_shear_mgt y) in
  mx * k_zmax k / (k_flap_inertia k * cap) = y_bend_uts y /\ 3 / 2 * vz <= y_shear_uss y * (k_height k * web).
Proof.
  intros [a1 a2 a3 a4 a5 a6 b1 b2 b3 b4 b5 b6 b7 b8 b9] M Z cap web. split.
  - unfold cap. field. repeat split; lra.
  - assert (W : 3 / 2 * vz / (y_shear_uss y * k_height k) <= web) by apply Rmax_l.
    assert (P : 0 < y_shear_uss y * k_height k) by (apply Rmult_lt_0_compat; assumption).
    apply Rmult_le_compat_l with (r := y_shear_uss y * k_height k) in W; [|lra]. replace (3 / 2 * vz) with (y_shear_uss y * k_height k * (3 / 2 * vz / (y_shear_uss y * k_height k))) by (field; lra).
    nra.
Qed.
(** the torsion skin does not: its thickness has the first spacing as a factor, and a motor at the root makes that spacing nought *)
Theorem C104_torsion_skin_refuted y k my x motors L0 chord cmocl lod t grace : sound_materials y k -> 0 <= y_tors_mgt y ->
  torsion_skin y k 0 my = y_tors_mgt y /\
  (forall dx, 0 <= dx < 1 -> 0 < my -> y_tors_mgt y < my / (2 * y_tors_uss y * k_torsion_area k) ->
     2 * y_tors_uss y * k_torsion_area k * torsion_skin y k dx my < my) /\
  (forall cmocl', diffs x = 0 :: tl (diffs x) ->
     wing_mass y k x motors L0 chord cmocl lod t grace = wing_mass y k x motors L0 chord cmocl' lod t grace).
Proof.
  intros [a1 a2 a3 a4 a5 a6 b1 b2 b3 b4 b5 b6 b7 b8 b9] G. assert (U : 0 < 2 * y_tors_uss y * k_torsion_area k) by (apply Rmult_lt_0_compat; lra). 
  assert (Z : forall m, torsion_skin y k 0 m = y_tors_mgt y) by (intros m; unfold torsion_skin; rewrite Rmult_0_r; unfold Rdiv; rewrite Rmult_0_l; apply Rmax_right; exact G).
  split; [apply Z|]. split.
  - intros dx D M H. unfold torsion_skin. apply Rmax_case.
    + replace (2 * y_tors_uss y * k_torsion_area k * (my * dx / (2 * y_tors_uss y * k_torsion_area k))) with (my * dx) by (field; split; lra). nra.
    + apply Rmult_lt_compat_l with (r := 2 * y_tors_uss y * k_torsion_area k) in H; [|exact U].
      replace (2 * y_tors_uss y * k_torsion_area k * (my / (2 * y_tors_uss y * k_torsion_area k))) with my in H by (field; split; lra). exact H.
  - intros cmocl' D. unfold wing_mass. rewrite D. cbv iota. do 4 f_equal.
    assert (S : forall mz Mx My My' Vz, length My = length My' -> station_masses y k 0 mz Mx My Vz = station_masses y k 0 mz Mx My' Vz).
    { clear - Z. intros mz Mx. induction Mx as [|a Mx IH]; intros [|b My] [|b' My'] Vz L; try discriminate L; try reflexivity. destruct Vz as [|c Vz]; [reflexivity|].
      cbn [station_masses]. rewrite (IH My My') by (simpl in L; lia). f_equal. unfold station_mass. rewrite (Z b), (Z b'). reflexivity. }
    f_equal. apply S. unfold summed. rewrite !outboard_length, !map2_length, !map_length. reflexivity.
Qed.
Definition some_materials : materials := Materials 90 1600 (1 / 1000) 55 (1 / 100) 1500 1600 (1 / 10000) 1250 (1 / 10000) 1200 (1 / 100) (1 / 1000) 2700 (1 / 1000) 1600 90.
Definition some_section : section := Section_ (1 / 10) 1 (1 / 100) (1 / 5) (1 / 100) (1 / 5) (1 / 10) 2 (1 / 10) (1 / 20) (1 / 2).
Example C104_example_sound : sound_materials some_materials some_section /\ (exists my, y_tors_mgt some_materials < my / (2 * y_tors_uss some_materials * k_torsion_area some_section))
  /\ diffs [0; 0; 1; 2] = 0 :: tl (diffs [0; 0; 1; 2]) /\ outwards [0; 1 / 2; 1].
Proof.
  split; [constructor; simpl; lra|]. split; [exists 1; simpl; lra|]. split; [simpl; f_equal; lra|].
  intros i j H. do 3 (destruct i as [|i]; [do 3 (destruct j as [|j]; [simpl in H; try lia; unfold at_; simpl; lra|]); simpl in H; lia|]). simpl in H; lia.
Qed.

(** ** C105: mass of a propeller blade *)
(** the blade is sized for less than its share of the design thrust: (n-1)(2n-1)/(2 n^2) of it with n intervals *)
Theorem C105_blade_load sf thrust r blades n : r <> 0 -> (0 < n)%nat -> (0 < blades)%nat -> 
  INR blades * nth 0 (summed (blade_stations r n) (map (blade_load sf thrust r blades) (blade_stations r n))) 0
  = sf * thrust * (1 - (3 * INR n - 1) / (2 * (INR n * INR n))).
Proof.
  intros R0 N B. rewrite blade_root_shear by assumption. assert (0 < INR n) by (apply lt_0_INR; exact N). assert (0 < INR blades) by (apply lt_0_INR; exact B). field. lra.
Qed.
Theorem C105_blade_load_refuted sf thrust r blades n : r <> 0 -> (0 < n)%nat -> (0 < blades)%nat -> 0 < sf * thrust ->
  INR blades * nth 0 (summed (blade_stations r n) (map (blade_load sf thrust r blades) (blade_stations r n))) 0 < sf * thrust.
Proof.
  intros R0 N B T. rewrite C105_blade_load by assumption. assert (P : 1 <= INR n) by (change 1 with (INR 1); apply le_INR; lia).
  assert (0 < (3 * INR n - 1) / (2 * (INR n * INR n))) by (apply Rdiv_lt_0_compat; nra). nra.
Qed.
(** every piece of the caps is placed halfway to the first point of the cap: with the highest point first the stiffness comes out too large *)
Theorem C105_cap_inertia k l p : (forall q, In q (p :: l) -> 0 <= k q <= k p) -> cap_inertia k (p :: l) <= prop_inertia k (p :: l).
Proof. intros H. apply cap_more. exact H. Qed.
Theorem C105_cap_inertia_refuted : let l := [(0, 2); (1, 1); (2, 0)] in
  cap_inertia snd l < prop_inertia snd l /\ forall p q, cap_inertia snd [p; q] = prop_inertia snd [p; q].
Proof.
  cbv zeta. split; [|reflexivity]. simpl. unfold dist. simpl.
  replace ((1 - 0) * (1 - 0) + (1 - 2) * (1 - 2)) with 2 by lra. replace ((2 - 1) * (2 - 1) + (0 - 1) * (0 - 1)) with 2 by lra.
  assert (P := sqrt_lt_R0 2 ltac:(lra)). nra.
Qed.
(** the loop ends, for every tolerance and from every start, when the tip is slow enough for the strength of the caps *)
Theorem C105_loop_ends b sf vtip den uts tol m old : 0 < tol -> outwards (b_x b) -> (0 < length (b_x b))%nat -> 0 < tip (b_x b) -> 0 <= sf -> 0 <= den -> 0 < uts ->
  length (b_base b) = length (b_x b) -> length m = length (b_x b) -> 0 < b_rroot b -> b_ruts b <> 0 ->
  b_sfw2 b = sf * ((vtip / tip (b_x b)) * (vtip / tip (b_x b))) -> b_den_uts b = den / uts ->
  sf * (vtip * vtip) * den < 2 * uts -> exists fuel r, blade_loop fuel b tol m old = Some r.
Proof.
  intros T O P R0 S D U B L RR RU W DU H.
  assert (Q : 0 <= (vtip / tip (b_x b)) * (vtip / tip (b_x b))) by (apply Rle_0_sqr).
  apply blade_terminates; try assumption.
  - rewrite W. apply Rmult_le_pos; assumption.
  - rewrite DU. apply Rmult_le_pos; [exact D | left; apply Rinv_0_lt_compat; exact U].
  - unfold shrink. rewrite W, DU. replace (sf * (vtip / tip (b_x b) * (vtip / tip (b_x b))) * (den / uts) * (tip (b_x b) * tip (b_x b)) / 2) with (sf * (vtip * vtip) * den / (2 * uts)) by (field; lra).
    apply Rmult_lt_reg_r with (2 * uts); [lra|]. unfold Rdiv. rewrite Rmult_assoc, Rinv_l by lra. lra.
Qed.
(** a fast tip: the loop never ends *)
Definition fast_blade : blade := Blade [0; 1; 2] [1; 1; 1] 1 1 1 0 1 1 0 0 0.
Theorem C105_loop_ends_refuted fuel : blade_loop fuel fast_blade (1 / 100000000) [1; 1; 1] 3 = None.
Proof.
  assert (ST : forall u v w, blade_step fast_blade [u; v; w] = [1 + v; 1 + v; 1]).
  { intros u v w. unfold blade_step, centrifugal, fast_blade. simpl. repeat (f_equal; try lra). }
  assert (MA : forall u v w, blade_mass fast_blade [u; v; w] [1 + v; 1 + v; 1] = 2 + 2 * v).
  { intros u v w. unfold blade_mass, root_mass, fast_blade. simpl. lra. }
  assert (G : forall n u v w old, 1 <= v -> old <= 2 * v + 1 -> blade_loop n fast_blade (1 / 100000000) [u; v; w] old = None).
  { induction n as [|f IH]; intros u v w old V O; [reflexivity|]. cbn [blade_loop]. cbv zeta. rewrite ST, MA.
    replace (Rltb (1 / 100000000) (Rabs (2 + 2 * v - old))) with true; [apply IH; lra|]. symmetry. apply Rltb_true. rewrite Rabs_right by lra. lra. }
  apply G; lra.
Qed.
Example C105_example_default : 15 / 10 * (221 * 221) * 1600 < 2 * 1500000000.
Proof. lra. Qed.
Example C105_example_grid : outwards (b_x fast_blade) /\ tip (b_x fast_blade) = 2 /\ length (b_base fast_blade) = length (b_x fast_blade) /\ 0 < b_rroot fast_blade /\ b_ruts fast_blade <> 0.
Proof.
  split; [intros i j H; do 3 (destruct i as [|i]; [do 3 (destruct j as [|j]; [simpl in H; try lia; unfold at_; simpl; lra|]); simpl in H; lia|]); simpl in H; lia|].
  unfold tip, at_. simpl. repeat split; lra.
Qed.

(** ** C106: fuselage and wiring *)
Theorem C106_fuselage_grows_with_takeoff_weight h g s l m m' : sound_shell h -> 0 <= g -> 0 < s -> 0 < l -> 0 < m -> m <= m' ->
  shell_mass h g m s l <= shell_mass h g m' s l.
Proof. apply shell_grows. Qed.
Theorem C106_wetted_area_grows_with_the_square h k : 0 < h_length h -> 0 < h_width h -> 0 < h_height h -> 0 < k ->
  shell_wetted (stretched k h) = k * k * shell_wetted h.
Proof. apply wetted_scale. Qed.
Theorem C106_pads h m s l k : 0 < h_bearing_ubs h -> 0 < h_bolt_uss h -> 0 < m -> 0 < s -> 0 < l -> 0 < k -> pads h (k * m) s l = k * sqrt k * pads h m s l.
Proof. apply pads_scale. Qed.
(** the part of the keel that carries torsion is weighed per unit length: it does not depend on the length of the fuselage, while the part that
    carries bending grows with the square of it *)
Theorem C106_keel_refuted h g m s n : 0 < h_height h -> 0 < h_rbm_uts h ->
  let longer := Shell n (h_width h) (h_height h) (h_span h) (h_skin h) (h_canopy h) (h_rbm_den h) (h_rbm_uts h) (h_shear_den h) (h_shear_uss h) (h_bearing_den h) (h_bearing_ubs h) (h_bolt_uss h) in
  keel_torsion longer g m s = keel_torsion h g m s /\ h_length h * h_length h * keel_bending longer g m s = n * n * keel_bending h g m s.
Proof.
  intros A B longer. split; [reflexivity|]. rewrite !keel_bending_eq by assumption. unfold longer. cbn [h_length h_height h_rbm_den h_rbm_uts]. field. lra.
Qed.
(** each motor brings its own cable: from the middle of the fuselage to its place on the wing *)
Theorem C106_wiring_per_motor l a flen fheight span power w : l <> [] -> wiring (Some (MArray l)) flen fheight span power = Ok w ->
  wiring (Some (MArray (a :: l))) flen fheight span power = Ok (w + (57 / 10000000 * power + 552 / 10000) * (flen / 2 + fheight / 2 + Rabs a * span / 2)).
Proof.
  intros N H. unfold wiring in *. cbv zeta in *. injection H as <-. f_equal. 
  replace (Nat.max (length (a :: l)) 1) with (S (Nat.max (length l) 1)) by (destruct l; [congruence | simpl; lia]). rewrite S_INR. simpl map. simpl total. field.
Qed.
(** a wing without motors counts as one with a motor at the root; a wing that was never given the list costs nothing; a plain list raises *)
Theorem C106_wiring_without_motors flen fheight span power l : 
  wiring (Some (MArray [])) flen fheight span power = wiring (Some (MArray [0])) flen fheight span power /\
  wiring None flen fheight span power = Ok 0 /\ wiring (Some (MList l)) flen fheight span power = Err TypeError.
Proof. split; [|split; reflexivity]. unfold wiring. simpl. rewrite Rabs_R0. do 2 f_equal; [f_equal|]; lra. Qed.
Example C106_example : sound_shell (Shell 6 1 1 10 1 1 1600 1500 1600 90 1600 600 250).
Proof. constructor; simpl; lra. Qed.

(** ** C107: the statement of an electric vehicle *)
Theorem C107_statement c pax eta k nets wings fuse o : evtol_empty c pax eta k nets wings fuse = Ok o ->
  exists ss f, Forall2 (brings c) nets ss /\ fuse = Some f /\
  o_prop o = sum_over s_blades_p ss /\ o_lift o = sum_over s_blades_l ss + sum_over s_tail ss /\ o_motors o = sum_over s_motors ss /\
  o_servos o = sum_over s_servos ss /\ o_hubs o = sum_over s_hubs ss /\ o_brs o = sum_over s_brs ss /\ o_wings o = sum_over wing_weight wings /\
  o_empty o = k * (sum_over s_blades_p ss + sum_over s_blades_l ss + sum_over s_tail ss + sum_over s_hubs ss + f + 2 / 100 * c_mtow c + sum_over wing_weight wings
                   + 22 * pax + 15 + sum_over s_motors ss + sum_over s_servos ss + o_wiring o + sum_over s_brs ss) + sum_over s_battery ss /\
  o_total o = o_empty o + sum_over s_payload ss + 70 * pax.
Proof.
  intros H. destruct (evtol_sums c pax eta k nets wings fuse o H) as (ss & f & t & F & FU & _ & H1 & H2 & H3 & H4 & H5 & H6 & H7 & H8 & H9 & H10 & H11 & H12 & H13 & H14 & H15 & H16 & H17 & H18 & _).
  exists ss, f. split; [exact F|]. split; [exact FU|]. repeat (split; [assumption|]). split; [|rewrite H18, H5, H14; reflexivity].
  rewrite H17, H16, H1, H2, H3, H4, H6, H7, H8, H9, H11, H12, H13, H15. ring.
Qed.
(** what it raises *)
Theorem C107_errors c pax eta k n nets wings w fuse o : 
  (In n nets -> (n_net n = OtherNetwork \/ exists us, n_net n = BatteryPropeller us /\ count_kind KPropeller us <> 0%nat /\ count_kind KLiftRotor us <> 0%nat) ->
     evtol_empty c pax eta k nets wings fuse <> Ok o) /\
  evtol_empty c pax eta k nets wings None <> Ok o /\
  evtol_empty c pax eta k [] (w :: wings) fuse = Err UnboundLocalError /\
  ((exists us, n_net n = BatteryPropeller us /\ count_kind KPropeller us = 0%nat /\ count_kind KLiftRotor us = 0%nat) ->
     evtol_empty c pax eta k (n :: nets) wings fuse = Err UnboundLocalError).
Proof.
  split; [|split; [|split]].
  - intros I B H. destruct (C107_statement _ _ _ _ _ _ _ _ H) as (ss & f & F & _).
    assert (X : exists s, brings c n s).
    { clear - I F. induction F as [|a s nets ss B F IH]; [destruct I|]. destruct I as [->|I]; [exists s; exact B | apply IH; exact I]. }
    destruct X as (s & nl & nt & p & r & X & _). destruct B as [B|(us & B & P & L)]; rewrite B in X; inversion X; subst; congruence.
  - intros H. destruct (C107_statement _ _ _ _ _ _ _ _ H) as (ss & f & _ & X & _). discriminate X.
  - unfold evtol_empty. cbn [fold_left bind t_power tally0].
    match goal with |- bind (fold_left ?g wings ?e) _ = _ => assert (X : forall l, fold_left g l (Err UnboundLocalError) = Err UnboundLocalError) by (induction l as [|y l IH]; [reflexivity | exact IH]); rewrite X end. reflexivity.
  - intros (us & B & P & L). unfold evtol_empty. cbn [fold_left]. replace (one_enet c (Ok tally0) n) with (@Err tally UnboundLocalError); [rewrite fold_err; reflexivity|].
    unfold one_enet. cbn [bind]. rewrite B. unfold network_units. rewrite P, L. reflexivity.
Qed.
(** the mass stored in a propeller holds a servo when a propeller before it, or itself, has variable pitch *)
Theorem C107_stored_propeller_masses c pax eta k n wings fuse o nl nt p r i z : n_net n = LiftCruise nl nt p r -> nt <> 0%nat ->
  evtol_empty c pax eta k [n] wings fuse = Ok o -> nth_error p i = Some z ->
  nth_error (o_rotor_masses o) i = Some (c_blade c z (max_lift c / 5) + 4 / 100 * c_mtow c + (if any_variable (firstn (S i) p) then 52 / 10 else 0)).
Proof.
  intros N T H Z. destruct (evtol_sums c pax eta k [n] wings fuse o H) as (ss & f & t & _ & _ & E & H1).
  destruct H1 as (_ & _ & _ & _ & _ & _ & _ & _ & _ & _ & _ & _ & _ & _ & _ & _ & _ & _ & ST & _). rewrite ST. cbn [fold_left] in E.
  destruct (one_net c tally0 n t E) as (nl' & nt' & p' & r' & F & A). cbv zeta in A. destruct A as (_ & _ & _ & _ & _ & _ & _ & _ & A).
  apply units_fitted in F. rewrite N in F. injection F as <- <- <- <-. rewrite A. unfold net_stored. cbn [t_stored tally0 app]. destruct nt as [|nt]; [congruence|]. cbn [Nat.eqb].
  assert (Q := stored_nth (fun z => c_blade c z (max_lift c / 5)) (c_mtow c * (4 / 100)) (52 / 10) p 0 i z Z).
  rewrite nth_error_app1 by (apply nth_error_Some; rewrite Q; discriminate). rewrite Q. do 2 f_equal. ring.
Qed.
(** with as many units listed as declared, pitch control on the first unit or on none, and no contingency, the masses stored in the parts of the
    vehicle are the total without the landing gear and the tail rotor *)
Theorem C107_stored_masses_add_up c pax eta n wings fuse o nl nt p r : fitted (n_net n) nl nt p r -> nl = length r -> nt = length p ->
  any_variable p = match p with z :: _ => z_pitch z | [] => false end -> any_variable r = match r with z :: _ => z_pitch z | [] => false end ->
  evtol_empty c pax eta 1 [n] wings fuse = Ok o ->
  sum_over (fun x => x) (o_rotor_masses o) + o_motors o + n_battery n + n_payload n + o_avionics o + o_ecs o + o_wings o + o_fuselage_mass o
  = o_total o - o_gear o - (if Nat.eqb nl 1 then tail_of c r else 0).
Proof.
  intros F L T VP VR H. destruct (evtol_sums c pax eta 1 [n] wings fuse o H) as (ss & f & t & FA & FU & E & H1 & H2 & H3 & H4 & H5 & H6 & H7 & H8 & H9 & H10 & H11 & H12 & H13 & H14 & H15 & H16 & H17 & H18 & ST & FM & _).
  cbn [fold_left] in E. destruct (one_net c tally0 n t E) as (nl' & nt' & p' & r' & F' & A). cbv zeta in A. destruct A as (_ & _ & _ & _ & _ & _ & _ & _ & A).
  assert (U : nl' = nl /\ nt' = nt /\ p' = p /\ r' = r).
  { apply units_fitted in F. apply units_fitted in F'. rewrite F in F'. injection F' as -> -> -> ->. repeat split. }
  destruct U as (-> & -> & -> & ->).
  assert (SS : ss = [share_of c nl nt p r (n_battery n) (n_payload n)]).
  { inversion FA as [|? s ? ss' BR FA']; subst. inversion FA'; subst. destruct BR as (a & b & p1 & r1 & F1 & ->). apply units_fitted in F. apply units_fitted in F1. rewrite F in F1. injection F1 as <- <- <- <-. reflexivity. }
  assert (R1 : sum_over (fun x => x) (o_rotor_masses o) = sum_over s_blades_p ss + sum_over s_blades_l ss + sum_over s_hubs ss + sum_over s_servos ss).
  { rewrite ST, A. cbn [t_stored tally0 app]. unfold net_stored. rewrite sum_id_app. rewrite SS. cbn [sum_over]. unfold share_of. cbn [s_blades_p s_blades_l s_hubs s_servos].
    destruct nt as [|nt]; destruct nl as [|nl]; cbn [Nat.eqb sum_over].
    - change (INR 0) with 0. ring.
    - rewrite stored_first by exact VR. rewrite <- L. change (INR 0) with 0. ring.
    - rewrite stored_first by exact VP. rewrite <- T. change (INR 0) with 0. ring.
    - rewrite !stored_first by assumption. rewrite <- T, <- L. ring. }
  assert (TL : (if Nat.eqb nl 1 then tail_of c r else 0) = sum_over s_tail ss) by (rewrite SS; cbn [sum_over]; unfold share_of; cbn [s_tail]; ring).
  assert (BB : sum_over s_battery ss = n_battery n) by (rewrite SS; cbn [sum_over]; unfold share_of; cbn [s_battery]; ring).
  assert (BP : sum_over s_payload ss = n_payload n) by (rewrite SS; cbn [sum_over]; unfold share_of; cbn [s_payload]; ring).
  rewrite TL, R1, FM, H18, H17, H16, H1, H2, H3, H4, H5, H6, H7, H8, BB, BP. ring.
Qed.
(** otherwise they need not: hubs are counted by the declared number of engines, blades and motors by the list *)
Theorem C107_declared_and_listed_refuted c b py z nt : 
  let s := share_of c 0 nt [z] [] b py in nt <> 0%nat -> s_hubs s = INR nt * (4 / 100 * c_mtow c) /\ s_blades_p s = c_blade c z (max_lift c / 5) /\ s_motors s = z_motor z.
Proof.
  intros s N. unfold s, share_of. cbn [s_hubs s_blades_p s_motors]. destruct nt as [|nt]; [congruence|]. cbn [Nat.eqb sum_over]. change (INR 0) with 0. repeat split; ring.
Qed.
Definition rot (v : bool) : rotor := Rotor_ 1 (1 / 10) v 3.
Definition some_craft (m : R) : craft := Craft m (11 / 10) (115 / 100) 220 (fun _ t => t / 1000).
Definition some_net : enet := ENet (LiftCruise 0 2 [rot true; rot false] []) 200 50.
Example C107_example : exists o, evtol_empty (some_craft 1000) 2 (8 / 10) 1 [some_net] [] (Some 100) = Ok o /\ fitted (n_net some_net) 0 2 [rot true; rot false] [].
Proof. eexists. split; [reflexivity | constructor]. Qed.
(** a propeller of fixed pitch behind one of variable pitch is stored with a servo of 5.2 kg; before it, without *)
Theorem C107_servo_of_a_fixed_propeller_refuted : exists o o',
  evtol_empty (some_craft 1000) 2 (8 / 10) 1 [some_net] [] (Some 100) = Ok o /\
  evtol_empty (some_craft 1000) 2 (8 / 10) 1 [ENet (LiftCruise 0 2 [rot false; rot true] []) 200 50] [] (Some 100) = Ok o' /\
  nth 1 (o_rotor_masses o) 0 = nth 0 (o_rotor_masses o') 0 + 52 / 10 /\ o_total o = o_total o'.
Proof. eexists. eexists. split; [reflexivity|]. split; [reflexivity|]. cbn. split; lra. Qed.

(** ** C108: converging the take-off weight *)
(** True: the take-off weight is a number of build-ups applied to the first one, at most 99, and differs from its own build-up by at most 1 kg;
    it is the first such.  False: none of the first hundred was, and the weight is the hundredth build-up *)
Theorem C108_converged W m m' : converge W m = (true, m') <->
  exists k, (k <= 99)%nat /\ m' = iterate k W m /\ Rabs (m' - W m') <= 1 /\ forall j, (j < k)%nat -> 1 < Rabs (iterate j W m - W (iterate j W m)).
Proof.
  unfold converge. destruct (loop_char 99 W m) as [(k & K & A & B & C)|(A & B)]; rewrite A; split.
  - intros H. injection H as <-. exists k. repeat split; assumption.
  - intros (k' & K' & -> & B' & C'). f_equal. destruct (Nat.lt_trichotomy k k') as [L|[->|L]]; [|reflexivity|].
    + specialize (C' k L). lra.
    + specialize (C k' L). lra.
  - discriminate.
  - intros (k' & K' & -> & B' & _). specialize (B k' K'). lra.
Qed.
Theorem C108_not_converged W m m' : converge W m = (false, m') <->
  m' = iterate 100 W m /\ forall j, (j < 100)%nat -> 1 < Rabs (iterate j W m - W (iterate j W m)).
Proof.
  unfold converge. destruct (loop_char 99 W m) as [(k & K & A & B & C)|(A & B)]; rewrite A; split.
  - discriminate.
  - intros (_ & B'). specialize (B' k ltac:(lia)). lra.
  - intros H. injection H as <-. split; [reflexivity|]. intros j J. apply B. lia.
  - intros (-> & _). reflexivity.
Qed.
(** if a kilogram more of take-off weight adds at most q < 1 kilogram of build-up the loop converges, and then the weight is within 1/(1-q) of
    the vehicle that carries exactly its own weight *)
Theorem C108_converges W q m : 0 <= q < 1 -> (forall a b, Rabs (W a - W b) <= q * Rabs (a - b)) -> q ^ 99 * Rabs (m - W m) <= 1 ->
  exists m', converge W m = (true, m') /\ forall s, W s = s -> Rabs (m' - s) <= 1 / (1 - q).
Proof.
  intros Q H S. destruct (converge W m) as [[|] m'] eqn:E.
  - exists m'. split; [reflexivity|]. intros s F. apply C108_converged in E. destruct E as (k & _ & _ & B & _).
    assert (T : Rabs (m' - s) <= Rabs (m' - W m') + Rabs (W m' - W s)) by (replace (m' - s) with ((m' - W m') + (W m' - W s)) by lra; apply Rabs_triang).
    specialize (H m' s). apply Rmult_le_reg_r with (1 - q); [lra|]. unfold Rdiv. rewrite Rmult_assoc, Rinv_l by lra. lra.
  - exfalso. apply C108_not_converged in E. destruct E as (_ & B). specialize (B 99%nat ltac:(lia)).
    assert (G := contraction_gap W q m ltac:(lra) H 99%nat). lra.
Qed.
(** a vehicle that reaches its weight with the hundredth build-up is reported as not converged *)
Theorem C108_last_iteration_refuted : exists W m m', converge W m = (false, m') /\ W m' = m'.
Proof.
  pose (W := fun x => if Rltb x 200 then x + 2 else x).
  assert (I : forall j, (j <= 100)%nat -> iterate j W 0 = 2 * INR j).
  { induction j as [|j IH]; intros J; [simpl; lra|]. simpl iterate. rewrite IH by lia. unfold W. rewrite S_INR.
    assert (INR j < 100) by (replace 100 with (INR 100) by (simpl; lra); apply lt_INR; lia).
    replace (Rltb (2 * INR j) 200) with true by (symmetry; apply Rltb_true; lra). lra. }
  assert (H : INR 100 = 100) by (simpl; lra).
  exists W, 0, 200. split.
  - apply C108_not_converged. split; [rewrite I by lia; lra|]. intros j J. rewrite I by lia. unfold W.
    assert (INR j < 100) by (rewrite <- H; apply lt_INR; lia). replace (Rltb (2 * INR j) 200) with true by (symmetry; apply Rltb_true; lra).
    rewrite Rabs_left by lra. lra.
  - unfold W. replace (Rltb 200 200) with false by (symmetry; apply Rltb_false; lra). reflexivity.
Qed.
(** every propeller of a network has a hub of four percent of the take-off weight: with too many of them no take-off weight is enough *)
Theorem C108_too_many_propellers W c k pax eta n wings fuse nl nt p r : fitted (n_net n) nl nt p r ->
  (forall m, 0 <= m -> exists o, evtol_empty (c m) pax eta k [n] (wings m) (fuse m) = Ok o /\ W m = o_total o /\ 0 <= o_wiring o) ->
  (forall m, c_mtow (c m) = m) -> (forall m z t, 0 <= c_blade (c m) z t) -> (forall z, In z (p ++ r) -> 0 <= z_motor z) ->
  (forall m w, In w (wings m) -> 0 <= w_weight w) -> (forall m f, fuse m = Some f -> 0 <= f) -> 0 <= n_battery n -> 0 <= n_payload n -> 0 <= pax -> 1 <= k ->
  1 <= k * (4 / 100 * INR nt + 2 / 100) -> forall m, 0 <= m -> fst (converge W m) = false.
Proof.
  intros F H M BL MO WI FU B0 P0 X0 K N.
  assert (G : forall m, 0 <= m -> m + 31 <= W m).
  { intros m M0. destruct (H m M0) as (o & E & -> & WR). destruct (C107_statement _ _ _ _ _ _ _ _ E) as (ss & f & FA & FE & _ & _ & _ & _ & _ & _ & _ & HE & HT).
    assert (SS : ss = [share_of (c m) nl nt p r (n_battery n) (n_payload n)]).
    { inversion FA as [|? s ? ss' BR FA']; subst. inversion FA'; subst. destruct BR as (a & b & p1 & r1 & F1 & ->). apply units_fitted in F. apply units_fitted in F1. rewrite F in F1. injection F1 as <- <- <- <-. reflexivity. }
    rewrite HT, HE, SS. cbn [sum_over]. unfold share_of. cbn [s_blades_p s_blades_l s_tail s_motors s_servos s_hubs s_brs s_battery s_payload]. rewrite (M m).
    assert (S1 : forall (g : rotor -> R) l, (forall z, 0 <= g z) -> 0 <= sum_over g l) by (intros g l Z; apply sum_over_pos; intros; apply Z).
    assert (A1 : 0 <= (if Nat.eqb nt 0 then 0 else sum_over (fun z => c_blade (c m) z (max_lift (c m) / 5)) p)) by (destruct (Nat.eqb nt 0); [lra | apply S1; intros; apply BL]).
    assert (A2 : 0 <= (if Nat.eqb nl 0 then 0 else sum_over (fun z => c_blade (c m) z (max_lift (c m) / INR (Nat.max (nl - 1) 1))) r)) by (destruct (Nat.eqb nl 0); [lra | apply S1; intros; apply BL]).
    assert (A3 : 0 <= (if Nat.eqb nl 1 then tail_of (c m) r else 0)).
    { destruct (Nat.eqb nl 1); [|lra]. unfold tail_of. destruct r; [lra|]. cbv zeta. apply Rmult_le_pos; [apply BL | lra]. }
    assert (A4 : 0 <= (if Nat.eqb nl 0 then 0 else sum_over z_motor r)) by (destruct (Nat.eqb nl 0); [lra | apply sum_over_pos; intros; apply MO; apply in_or_app; right; assumption]).
    assert (A5 : 0 <= (if Nat.eqb nt 0 then 0 else sum_over z_motor p)) by (destruct (Nat.eqb nt 0); [lra | apply sum_over_pos; intros; apply MO; apply in_or_app; left; assumption]).
    assert (A6 : 0 <= INR nl * (if any_variable r then 65 / 100 else 0) + INR nt * (if any_variable p then 52 / 10 else 0))
      by (assert (U := pos_INR nl); assert (V := pos_INR nt); destruct (any_variable r); destruct (any_variable p); nra).
    assert (A7 : 16 <= (if Nat.ltb 1 (nl + nt) then 32 else 16)) by (destruct (Nat.ltb 1 (nl + nt)); lra).
    assert (A8 : 0 <= sum_over wing_weight (wings m)) by (apply sum_over_pos; intros w I; unfold wing_weight; destruct (w_symbolic w); [lra | apply (WI m w I)]).
    assert (A9 := FU m f FE). assert (A10 := pos_INR nl).
    set (rest := (if Nat.eqb nt 0 then 0 else sum_over (fun z => c_blade (c m) z (max_lift (c m) / 5)) p)) in *.
    set (rest2 := (if Nat.eqb nl 0 then 0 else sum_over (fun z => c_blade (c m) z (max_lift (c m) / INR (Nat.max (nl - 1) 1))) r)) in *.
    set (rest3 := (if Nat.eqb nl 1 then tail_of (c m) r else 0)) in *. set (mo1 := if Nat.eqb nl 0 then 0 else sum_over z_motor r) in *.
    set (mo2 := if Nat.eqb nt 0 then 0 else sum_over z_motor p) in *. set (sv := INR nl * (if any_variable r then 65 / 100 else 0) + INR nt * (if any_variable p then 52 / 10 else 0)) in *.
    set (br := if Nat.ltb 1 (nl + nt) then 32 else 16) in *. set (ww := sum_over wing_weight (wings m)) in *.
    assert (KEY : k * ((4 / 100 * INR nt + 2 / 100) * m + 31) <=
      k * (rest + 0 + (rest2 + 0) + (rest3 + 0) + (INR nl * 4 + INR nt * (4 / 100 * m) + 0) + f + 2 / 100 * m + ww + 22 * pax + 15 + (mo1 + mo2 + 0) + (sv + 0) + o_wiring o + (br + 0))).
    { apply Rmult_le_compat_l; [lra|]. lra. }
    assert (K2 : m <= k * (4 / 100 * INR nt + 2 / 100) * m) by nra. lra. }
  intros m M0. destruct (converge W m) as [[|] m'] eqn:E; [|reflexivity]. apply C108_converged in E. destruct E as (j & _ & -> & B & _).
  assert (I : forall i, 0 <= iterate i W m) by (induction i as [|i IH]; [exact M0|]; simpl; specialize (G _ IH); lra).
  specialize (G _ (I j)). rewrite Rabs_left in B by lra. lra.
Qed.
Example C108_example : exists m', converge (fun m => m / 2 + 500) 800 = (true, m') /\ forall s, s / 2 + 500 = s -> Rabs (m' - s) <= 1 / (1 - / 2).
Proof.
  apply (C108_converges (fun m => m / 2 + 500) (/ 2) 800); [lra | |].
  - intros a b. replace (a / 2 + 500 - (b / 2 + 500)) with (/ 2 * (a - b)) by field. rewrite Rabs_mult, (Rabs_right (/ 2)) by lra. lra.
  - replace (800 - (800 / 2 + 500)) with (-100) by lra. rewrite Rabs_left by lra. replace (- -100) with 100 by lra.
    apply Rle_trans with ((/ 2) ^ 7 * 100); [|simpl; lra]. apply Rmult_le_compat_r; [lra|]. replace 99%nat with (7 + 92)%nat by reflexivity. rewrite pow_add.
    assert ((/ 2) ^ 92 <= 1) by (rewrite <- (pow1 92); apply pow_incr; lra). assert (0 <= (/2) ^ 7) by (apply pow_le; lra). nra.
Qed.
Definition light_craft (m : R) : craft := Craft m (11 / 10) (115 / 100) 220 (fun _ t => Rmax t 0 / 1000).
Definition many : enet := ENet (LiftCruise 0 25 (repeat (rot true) 25) []) 200 50.
Example C108_example_25_propellers m : 0 <= m ->
  fst (converge (fun m => match evtol_empty (light_craft m) 2 (8 / 10) 1 [many] [] (Some 100) with Ok o => o_total o | Err _ => 0 end) m) = false.
Proof.
  apply (C108_too_many_propellers _ light_craft 1 2 (8 / 10) many (fun _ => []) (fun _ => Some 100) 0 25 (repeat (rot true) 25) []).
  - constructor.
  - intros m0 M0. destruct (evtol_empty (light_craft m0) 2 (8 / 10) 1 [many] [] (Some 100)) as [o|e] eqn:E.
    + exists o. split; [reflexivity|]. split; [reflexivity|]. destruct (evtol_sums _ _ _ _ _ _ _ _ E) as (ss & f & t & H).
      repeat (destruct H as [_ H]). destruct (t_power t) as [[p0 n0]|]; [rewrite H | destruct H as [_ H]; rewrite H]; simpl; lra.
    + exfalso. unfold evtol_empty, many in E. cbn [fold_left] in E. unfold one_enet in E. cbn [bind network_units n_net] in E. rewrite units_eq in E. discriminate E.
  - reflexivity.
  - intros m0 z t. simpl. apply Rmult_le_pos; [apply Rmax_r | lra].
  - intros z Z. rewrite app_nil_r in Z. apply repeat_spec in Z. subst z. simpl. lra.
  - intros m0 w W. destruct W.
  - intros m0 f F. injection F as <-. lra.
  - simpl. lra.
  - simpl. lra.
  - lra.
  - lra.
  - replace (INR 25) with 25 by (simpl; lra). lra.
Qed.
Print Assumptions C103_shear_is_the_load_outboard.
Print Assumptions C103_moment_is_load_times_arm.
Print Assumptions C103_loads_fall_towards_the_tip.
Print Assumptions C103_root_carries_the_design_lift.
Print Assumptions C103_wings_share_the_weight.
Print Assumptions C103_thrust_shear_counts_motors_outboard.
Print Assumptions C104_section_area.
Print Assumptions C104_skin_length.
Print Assumptions C104_section_thickness.
Print Assumptions C104_wing_mass_grows.
Print Assumptions C104_unloaded_wing.
Print Assumptions C104_caps_and_web_carry_the_load.
Print Assumptions C104_torsion_skin_refuted.
Print Assumptions C105_blade_load.
Print Assumptions C105_blade_load_refuted.
Print Assumptions C105_cap_inertia.
Print Assumptions C105_cap_inertia_refuted.
Print Assumptions C105_loop_ends.
Print Assumptions C105_loop_ends_refuted.
Print Assumptions C106_fuselage_grows_with_takeoff_weight.
Print Assumptions C106_wetted_area_grows_with_the_square.
Print Assumptions C106_pads.
Print Assumptions C106_keel_refuted.
Print Assumptions C106_wiring_per_motor.
Print Assumptions C106_wiring_without_motors.
Print Assumptions C107_statement.
Print Assumptions C107_errors.
Print Assumptions C107_stored_propeller_masses.
Print Assumptions C107_stored_masses_add_up.
Print Assumptions C107_declared_and_listed_refuted.
Print Assumptions C107_servo_of_a_fixed_propeller_refuted.
Print Assumptions C108_converged.
Print Assumptions C108_not_converged.
Print Assumptions C108_converges.
Print Assumptions C108_last_iteration_refuted.
Print Assumptions C108_too_many_propellers.
