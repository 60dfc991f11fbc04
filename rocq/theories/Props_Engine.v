(** * Gas turbines: the properties C57-C63 *)
From Coq Require Import Reals List Lra Lia String Bool.
From Verif Require Import M_Opt P_Opt M_Engine S_Engine P_Engine P_Shock.
Import ListNotations.
Local Open Scope R_scope.

Lemma exp_mono : forall a b, a <= b -> exp a <= exp b.
Proof. intros a b [H | ->]; [left; apply exp_increasing; auto | lra]. Qed.

Lemma neg_le : forall a b u, u <= 0 -> a <= b -> b * u <= a * u.
Proof. intros; nra. Qed.

Lemma nadd_ss : forall a b, nadd (Some a) (Some b) = Some (a + b). Proof. reflexivity. Qed.
Lemma nsub_ss : forall a b, nsub (Some a) (Some b) = Some (a - b). Proof. reflexivity. Qed.
Lemma nmul_ss : forall a b, nmul (Some a) (Some b) = Some (a * b). Proof. reflexivity. Qed.
Ltac nsimp := repeat first [rewrite nadd_ss | rewrite nsub_ss | rewrite nmul_ss | rewrite ndiv_some by lra].

(** ** C57: the components *)
(** the ram rises temperature and pressure without losses *)
Theorem C57_ram : forall fl x g c, fluid_at fl x g c -> 1 < g -> 0 < x_T x ->
  exists Tt Pt, s_Tt (ram fl x) = Some Tt /\ s_Pt (ram fl x) = Some Pt /\
    Tt = x_T x * (1 + (g - 1) / 2 * x_M x ^ 2) /\
    Pt = x_p x * isentropic_P g (Tt / x_T x).
Proof.
  intros fl x g c F G T. rewrite (ram_some fl x g c F G). cbn [s_Tt s_Pt flow_of].
  do 2 eexists. split; [reflexivity |]. split; [reflexivity |]. unfold ram_T, ram_P, isentropic_P. split; [ring |].
  do 2 f_equal. field. lra.
Qed.
(** a compressor multiplies the pressure by its ratio and does the work it reports; its
    temperature rise is the loss-free one divided by the polytropic efficiency *)
Theorem C57_compressor : forall q g c r T0 P0 T P,
  1 < g -> 0 < c -> 0 < T -> 0 < co_pr q -> 0 < co_eff q ->
  exists T', compressor q (flow_of g c r T0 P0) (at_station T P)
             = CompO (Some T') (Some (P * co_pr q)) (Some (c * T')) (Some (c * T' - c * T)) /\
    0 < T' /\
    ln (T' / T) * co_eff q = ln (isentropic_T g (co_pr q)) /\
    (1 <= co_pr q -> co_eff q <= 1 -> T * isentropic_T g (co_pr q) <= T' /\ T <= T').
Proof.
  intros q g c r T0 P0 T P G C HT HP HE.
  exists (T * Rpower (co_pr q) ((g - 1) / (g * co_eff q))). rewrite compressor_some by auto.
  split; [reflexivity |]. pose proof (Rpower_pos (co_pr q) ((g - 1) / (g * co_eff q))) as PP.
  split; [apply Rmult_lt_0_compat; auto |]. split.
  - replace (T * Rpower (co_pr q) ((g - 1) / (g * co_eff q)) / T) with (Rpower (co_pr q) ((g - 1) / (g * co_eff q))) by (field; lra).
    unfold isentropic_T. rewrite !ln_Rpower. field. lra.
  - intros H1 H2. unfold isentropic_T.
    assert (Rpower (co_pr q) ((g - 1) / g) <= Rpower (co_pr q) ((g - 1) / (g * co_eff q))).
    { apply Rpower_le_exp; auto. apply Rmult_le_reg_r with (g * co_eff q); [apply Rmult_lt_0_compat; lra |].
      replace ((g - 1) / g * (g * co_eff q)) with ((g - 1) * co_eff q) by (field; lra).
      replace ((g - 1) / (g * co_eff q) * (g * co_eff q)) with (g - 1) by (field; lra). nra. }
    assert (1 <= Rpower (co_pr q) ((g - 1) / (g * co_eff q))).
    { apply Rpower_ge1; auto. left. apply Rdiv_lt_0_compat; [lra | apply Rmult_lt_0_compat; lra]. }
    split; nra.
Qed.
(** two stages of the same efficiency are one stage of the product ratio, with the sum of the works *)
Theorem C57_stages : forall p1 p2 e g c r T0 P0 T P,
  1 < g -> 0 < p1 -> 0 < p2 -> 0 < e ->
  let s := flow_of g c r T0 P0 in
  let a := compressor (CompP p1 e) s (at_station T P) in
  let b := compressor (CompP p2 e) s (comp_out a) in
  let one := compressor (CompP (p1 * p2) e) s (at_station T P) in
  comp_out one = comp_out b /\
  exists w1 w2, co_work a = Some w1 /\ co_work b = Some w2 /\ co_work one = Some (w1 + w2).
Proof.
  intros p1 p2 e g c r T0 P0 T P G H1 H2 HE s a b one.
  unfold one, b, a, s. rewrite (compressor_some (CompP p1 e)) by auto.
  cbv zeta. unfold comp_out. cbn [co_Tt co_Pt co_pr co_eff].
  fold (at_station (T * Rpower p1 ((g - 1) / (g * e))) (P * p1)).
  rewrite (compressor_some (CompP p2 e)) by auto.
  rewrite (compressor_some (CompP (p1 * p2) e)) by (auto; cbn; apply Rmult_lt_0_compat; auto).
  cbn [co_pr co_eff co_Tt co_Pt co_work]. cbv zeta.
  rewrite <- (Rpower_mult_distr p1 p2 _ H1 H2). cbn [co_Tt co_Pt co_work].
  split; [f_equal; f_equal; ring |].
  do 2 eexists. split; [reflexivity |]. split; [reflexivity |]. f_equal. ring.
Qed.
(** the burner: the heat of the fuel brings air and fuel to the turbine inlet temperature *)
Theorem C57_combustor : forall q s i c T f, s_cp s = Some c -> tt i = Some T ->
  cb_f (combustor q (Some 1) s i) = Some f ->
  cb_Tt (combustor q (Some 1) s i) = Some (cb_Tt4 q) /\
  (1 + f) * (c * cb_Tt4 q) = c * T + f * (cb_eff q * cb_fuel q) /\
  (0 < c -> c * cb_Tt4 q < cb_eff q * cb_fuel q -> (0 < f <-> T < cb_Tt4 q)).
Proof.
  intros q s i c T f HC HT HF. destruct (combustor_balance q 1 s i f c T HC HT HF) as (N & E & B).
  split; [reflexivity |]. split; [rewrite B; ring |].
  intros C L. rewrite E, !Rmult_1_r.
  assert (D : 0 < cb_eff q * cb_fuel q - c * cb_Tt4 q) by lra.
  split; intro H.
  - destruct (Rlt_le_dec T (cb_Tt4 q)) as [|K]; auto. exfalso.
    assert ((c * cb_Tt4 q - c * T) / (cb_eff q * cb_fuel q - c * cb_Tt4 q) <= 0); [| lra].
    apply Rmult_le_reg_r with (cb_eff q * cb_fuel q - c * cb_Tt4 q); auto.
    replace ((c * cb_Tt4 q - c * T) / (cb_eff q * cb_fuel q - c * cb_Tt4 q) * (cb_eff q * cb_fuel q - c * cb_Tt4 q))
      with (c * (cb_Tt4 q - T)) by (field; lra). nra.
  - apply Rdiv_lt_0_compat; nra.
Qed.
(** the turbine gives the work asked of it, and loses at least the loss-free pressure *)
Theorem C57_turbine : forall q g c r T0 P0 T P al f w wf k,
  1 < g -> 0 < c -> 0 < T -> 0 < P -> 0 < tu_mech q -> 0 < tu_eff q -> 0 <= f ->
  w + k + al * wf < (1 + f) * tu_mech q * (c * T) ->
  exists T' P', turbine q (flow_of g c r T0 P0) (at_station T P) (Some al) (Some f) (Some w) (Some wf) (Some (Some k))
                = TurbO (Some T') (Some P') (Some (c * T')) /\
    (1 + f) * tu_mech q * (c * T - c * T') = w + k + al * wf /\
    0 < T' /\ 0 < P' /\ ln (P' / P) * tu_eff q = ln (isentropic_P g (T' / T)) /\
    (0 <= w + k + al * wf -> tu_eff q <= 1 -> P' <= P * isentropic_P g (T' / T) /\ P' <= P).
Proof.
  intros q g c r T0 P0 T P al f w wf k G C HT HP HM HE HF L.
  set (T' := T - (w + k + al * wf) / ((1 + f) * tu_mech q * c)).
  assert (M : 0 < (1 + f) * tu_mech q * c) by (apply Rmult_lt_0_compat; [apply Rmult_lt_0_compat |]; lra).
  assert (T0' : 0 < T').
  { unfold T'. assert ((w + k + al * wf) / ((1 + f) * tu_mech q * c) < T); [| lra].
    apply Rmult_lt_reg_r with ((1 + f) * tu_mech q * c); auto.
    replace ((w + k + al * wf) / ((1 + f) * tu_mech q * c) * ((1 + f) * tu_mech q * c)) with (w + k + al * wf) by (field; lra). lra. }
  exists T', (P * Rpower (T' / T) (g / ((g - 1) * tu_eff q))).
  split; [apply turbine_some with (k := k); auto; lra |].
  pose proof (Rpower_pos (T' / T) (g / ((g - 1) * tu_eff q))) as PP.
  split; [unfold T'; field; lra |]. split; auto. split; [apply Rmult_lt_0_compat; auto |].
  split.
  - replace (P * Rpower (T' / T) (g / ((g - 1) * tu_eff q)) / P) with (Rpower (T' / T) (g / ((g - 1) * tu_eff q))) by (field; lra).
    unfold isentropic_P. rewrite !ln_Rpower. field. lra.
  - intros W E1.
    assert (LE : T' <= T) by (unfold T'; assert (0 <= (w + k + al * wf) / ((1 + f) * tu_mech q * c)); [apply Rmult_le_pos; [auto | left; apply Rinv_0_lt_compat; auto] | lra]).
    assert (RR : 0 < T' / T <= 1).
    { split; [apply Rdiv_lt_0_compat; auto |]. apply Rmult_le_reg_r with T; auto. unfold Rdiv. rewrite Rmult_assoc, Rinv_l by lra. lra. }
    assert (LN : ln (T' / T) <= 0).
    { destruct RR as [R0 [R1 | ->]]; [left; rewrite <- ln_1; apply ln_increasing; auto | rewrite ln_1; lra]. }
    assert (EX : g / (g - 1) <= g / ((g - 1) * tu_eff q)).
    { apply Rmult_le_reg_r with ((g - 1) * tu_eff q); [apply Rmult_lt_0_compat; lra |].
      replace (g / (g - 1) * ((g - 1) * tu_eff q)) with (g * tu_eff q) by (field; lra).
      replace (g / ((g - 1) * tu_eff q) * ((g - 1) * tu_eff q)) with g by (field; lra). nra. }
    assert (E0 : 0 < g / (g - 1)) by (apply Rdiv_lt_0_compat; lra).
    assert (LE1 : Rpower (T' / T) (g / ((g - 1) * tu_eff q)) <= isentropic_P g (T' / T)).
    { unfold isentropic_P, Rpower. apply exp_mono. apply (neg_le _ _ _ LN EX). }
    assert (LE2 : Rpower (T' / T) (g / ((g - 1) * tu_eff q)) <= 1).
    { unfold Rpower. apply Rle_trans with (exp 0); [| rewrite exp_0; apply Rle_refl]. apply exp_mono.
      apply Rle_trans with (0 * ln (T' / T)); [apply (neg_le _ _ _ LN) | rewrite Rmult_0_l; apply Rle_refl].
      apply Rle_trans with (g / (g - 1)); [left; exact E0 | exact EX]. }
    split; nra.
Qed.
Lemma exit_p_max : forall p P, exit_p p P = Rmax p P.
Proof. intros p P. unfold exit_p. destruct (Rltb P p) eqn:E; [apply Rltb_true in E | apply Rltb_false in E]; unfold Rmax; destruct (Rle_dec p P); lra. Qed.
(** the inlet without its own shock: the pressure never falls below the ambient one, the Mach
    number is that of the pressure, and the kinetic energy is what the static state lacks *)
Theorem C57_inlet : forall q g c r T0 P0 T P x, 1 < g -> 0 < c -> 0 < in_pr q -> 0 < in_rec q -> 0 < in_eff q ->
  in_comp q = false -> 0 < x_p x -> 0 < T ->
  exists T' m t u,
    let P' := Rmax (x_p x) (P * in_pr q * in_rec q) in
    inlet q (flow_of g c r T0 P0) x (at_station T P)
    = Jet (Some T') (Some P') (Some (c * T')) (Some m) (Some t) (Some (c * t)) (Some u) None None None /\
    0 <= m /\ 0 < t /\ T' = t * (1 + (g - 1) / 2 * m ^ 2) /\ P' = x_p x * isentropic_P g (T' / t) /\
    0 <= u /\ c * t + u ^ 2 / 2 = c * T' /\
    (in_pr q * in_rec q = 1 -> T' = T) /\
    (in_pr q * in_rec q < 1 -> T' < T).
Proof.
  intros q g c r T0 P0 T P x G C HP HR HE HC Hp HT.
  rewrite inlet_some by auto. cbv zeta. rewrite exit_p_max.
  set (P' := Rmax (x_p x) (P * in_pr q * in_rec q)).
  assert (Q : 1 <= P' / x_p x).
  { apply Rmult_le_reg_r with (x_p x); auto. replace (P' / x_p x * x_p x) with P' by (field; lra).
    unfold P'. rewrite Rmult_1_l. apply Rmax_l. }
  set (m := mach_of g (P' / x_p x)). set (T' := inlet_T q g T).
  assert (PR : 0 < in_pr q * in_rec q) by (apply Rmult_lt_0_compat; auto).
  assert (T0' : 0 < T') by (unfold T', inlet_T; apply Rmult_lt_0_compat; auto; apply Rpower_pos).
  pose proof (kM_pos g m G) as KM. set (B := 1 + (g - 1) / 2 * m * m) in *.
  assert (TB : T' / B <= T').
  { apply Rmult_le_reg_r with B; [lra |]. replace (T' / B * B) with T' by (field; lra). nra. }
  exists T', m, (T' / B), (sqrt (2 * (c * T' - c * (T' / B)))). split; [reflexivity |].
  split; [apply sqrt_pos |]. split; [apply Rdiv_lt_0_compat; lra |].
  split; [unfold Rdiv at 1; replace (1 + (g - 1) / 2 * m ^ 2) with B by (unfold B; ring); field; lra |]. split.
  - unfold isentropic_P. replace (T' / (T' / B)) with B by (field; lra).
    unfold B, m. rewrite mach_P by auto. field. lra.
  - split; [apply sqrt_pos |]. split.
    + replace (sqrt (2 * (c * T' - c * (T' / B))) ^ 2) with (2 * (c * T' - c * (T' / B))); [field; lra |].
      rewrite <- Rsqr_pow2, Rsqr_sqrt; auto. nra.
    + assert (EX : 0 < (g - 1) / (g * in_eff q)) by (apply Rdiv_lt_0_compat; [lra | apply Rmult_lt_0_compat; lra]).
      unfold T', inlet_T. split; intro H.
      * rewrite H, Rpower_base1. ring.
      * assert (Rpower (in_pr q * in_rec q) ((g - 1) / (g * in_eff q)) < 1); [| nra].
        apply Rlt_le_trans with (Rpower 1 ((g - 1) / (g * in_eff q))); [apply Rpower_lt_base; auto | rewrite Rpower_base1; lra].
Qed.
(** the supersonic inlet with its own shock: the Mach number behind it and the loss of
    stagnation pressure are those of a normal shock *)
Theorem C57_inlet_shock : forall q g c r T0 P0 T P x, 1 < g -> in_comp q = true -> 1 < x_M x ->
  let k := oblique (x_M x) g 0 (PI / 2) in
  let o := inlet q (flow_of g c r T0 P0) x (at_station T P) in
  j_M o = Some (k_M k) /\ j_M o = Some (normal_shock (x_M x) g) /\
  j_Pt o = Some (in_pr q * P * k_Pt k) /\ 0 < k_M k < 1 /\ 0 < k_Pt k < 1.
Proof.
  intros q g c r T0 P0 T P x G HC HM k o.
  set (M := x_M x) in *.
  assert (MM : 1 < M * M) by nra.
  assert (D1 : 0 < g * (M * M) - (g - 1) / 2) by nra.
  assert (D2 : 0 < 2 * g * (M * M) - (g - 1)) by lra.
  assert (D3 : 0 < (g - 1) * (M * M) + 2) by nra.
  assert (A : (1 + (g - 1) / 2 * (M * M)) / (g * (M * M) - (g - 1) / 2) = sD g (M * M) / sN g (M * M)).
  { unfold sD, sN. field. lra. }
  assert (AP : 0 <= sD g (M * M) / sN g (M * M)) by (left; unfold sD, sN; apply Rdiv_lt_0_compat; lra).
  assert (EM : j_M o = Some (shock_M g (M * M))).
  { unfold o, inlet. rewrite HC. cbn [s_gamma s_cp flow_of tt pt at_station]. fold M.
    assert (L : nleb (Some M) (Some 1) = false).
    { cbn. destruct (Rltb 1 M) eqn:E; auto. apply Rltb_false in E. lra. }
    rewrite L. cbn [j_M]. nsimp.
    rewrite A, nsqrt_some by auto. reflexivity. }
  assert (EP : j_Pt o = Some (in_pr q * P * shock_Pt g (M * M))).
  { unfold o, inlet. rewrite HC. cbn [s_gamma s_cp flow_of tt pt at_station]. fold M.
    assert (L : nleb (Some M) (Some 1) = false).
    { cbn. destruct (Rltb 1 M) eqn:E; auto. apply Rltb_false in E. lra. }
    rewrite L. cbn [j_Pt]. nsimp.
    rewrite !npow_some by (apply Rdiv_lt_0_compat; try lra; apply Rmult_lt_0_compat; lra). nsimp.
    unfold shock_Pt. fold (sD g (M * M)). fold (sN g (M * M)). f_equal. ring. }
  assert (K : k = Shock (shock_M g (M * M)) (shock_P g (M * M)) (shock_T g (M * M)) (shock_Pt g (M * M))).
  { unfold k. rewrite oblique_eq, Rminus_0_r, sin_PI2, Rmult_1_r. unfold Rdiv at 1. rewrite Rinv_1, Rmult_1_r. reflexivity. }
  rewrite K. cbn [k_M k_Pt]. split; auto. split.
  - rewrite EM. unfold normal_shock, shock_M, sD, sN. do 3 f_equal; ring.
  - split; auto. split; [apply shock_M_range | apply shock_Pt_range]; auto.
Qed.

(** ** C58: the turbofan as a whole *)
Lemma nozzle_heat : forall q s x i g c ht, s_gamma s = Some g -> s_cp s = Some c -> 1 < g -> no_pr q = 1 ->
  j_ht (expansion q s x i) = Some ht -> exists T, tt i = Some T /\ ht = c * T.
Proof.
  intros q s x i g c ht G C HG HP H.
  assert (E : j_ht (expansion q s x i) = nmul (s_cp s) (nmul (tt i) (npow (Some (no_pr q)) (nmul (ndiv (nsub (s_gamma s) (Some 1)) (s_gamma s)) (Some (no_eff q)))))).
  { unfold expansion. destruct (nsqrt _); [destruct (Rltb r 1)|]; reflexivity. }
  rewrite E, G, C, HP, nsub_ss, ndiv_some, nmul_ss, npow_some, Rpower_base1 in H by lra.
  apply nmul_inv in H. destruct H as (a & b & Ha & Hb & ->). injection Ha as <-.
  apply nmul_inv in Hb. destruct Hb as (d & e & Hd & He & ->). injection He as <-.
  exists d. split; auto. ring.
Qed.
(** the enthalpy and kinetic energy of the jets, the power taken off and lost in the shafts are
    those of the captured air plus the heat of the fuel (per unit of core air flow), when the
    ducts have no pressure losses *)
Theorem C58_first_law : forall e x g c F, let r := fl_R (e_fluid e) in let cy := cycle_of false e x in
  fluid_at (e_fluid e) x g c -> 1 < g -> perfect g c r ->
  0 < c -> 0 < x_T x -> x_u x = speed g r (x_T x) (x_M x) -> 0 < r -> 0 < x_p x ->
  in_comp (e_inlet e) = false -> in_pr (e_inlet e) * in_rec (e_inlet e) = 1 ->
  0 < in_pr (e_inlet e) -> 0 < in_eff (e_inlet e) ->
  no_pr (e_core e) = 1 -> no_pr (e_fann e) = 1 ->
  n_thrust (evaluate e x) = Some F ->
  exists f h9 u9 h19 u19 k T45 T5,
    cb_f (c_comb cy) = Some f /\ j_h (c_core cy) = Some h9 /\ j_u (c_core cy) = Some u9 /\
    j_h (c_fann cy) = Some h19 /\ j_u (c_fann cy) = Some u19 /\
    match c_taken cy with Some w => w = Some k | None => k = 0 end /\
    tu_Tt (c_hpt cy) = Some T45 /\ tu_Tt (c_lpt cy) = Some T5 /\
    (1 + f) * (h9 + u9 ^ 2 / 2) + e_bypass e * (h19 + u19 ^ 2 / 2) + k
      + (1 + f) * ((1 - tu_mech (e_hpt e)) * (c * (cb_Tt4 (e_comb e) - T45))
                   + (1 - tu_mech (e_lpt e)) * (c * (T45 - T5)))
    = (1 + e_bypass e) * (c * x_T x + x_u x ^ 2 / 2)
      + f * (cb_eff (e_comb e) * cb_fuel (e_comb e)).
Proof.
  intros e x g c F. rewrite evaluate_eq. cbn [n_thrust]. pose proof (cycle_chain false e x) as CH.
  pose proof (first_law false e x) as FL. cbv zeta in FL |- *. revert CH FL. generalize (cycle_of false e x) as cy.
  set (r := fl_R (e_fluid e)). intros cy CH FL FA G PF C HT HU HR Hp IC IP I1 I2 N1 N2 HF.
  destruct (thrust_inv _ _ _ _ _ HF) as (v & b & m & V & B & M & _).
  destruct (nd_inv _ _ _ _ _ V) as (g' & tc & tf & u9 & p9 & r9 & u19 & p19 & r19 & G' & _ & _ & U9 & _ & _ & U19 & _ & _ & _).
  rewrite (h_inputs _ _ _ _ CH) in U9, U19. cbn [ti_core ti_fan] in U9, U19.
  assert (S : c_stream cy = flow_of g c r (ram_T g x) (ram_P g x)) by (rewrite (h_stream _ _ _ _ CH); apply ram_some; auto).
  assert (SG : s_gamma (c_stream cy) = Some g) by (rewrite S; reflexivity).
  assert (SC : s_cp (c_stream cy) = Some c) by (rewrite S; reflexivity).
  pose proof (h_core _ _ _ _ CH) as XC. pose proof (h_fann _ _ _ _ CH) as XF.
  pose proof U9 as U9'. pose proof U19 as U19'. rewrite XC in U9'. rewrite XF in U19'.
  destruct (jet_energy _ _ _ _ _ U9') as (h9 & ht9 & H9 & HT9 & _ & E9).
  destruct (jet_energy _ _ _ _ _ U19') as (h19 & ht19 & H19 & HT19 & _ & E19).
  rewrite <- XC in H9. rewrite <- XF in H19.
  destruct (nozzle_heat _ _ _ _ g c _ SG SC G N1 HT9) as (T5 & HT5 & ->).
  destruct (nozzle_heat _ _ _ _ g c _ SG SC G N2 HT19) as (Tf & HTf & ->).
  change (tu_Tt (c_lpt cy) = Some T5) in HT5. change (co_Tt (c_fan cy) = Some Tf) in HTf.
  assert (Ff : exists f, cb_f (c_comb cy) = Some f).
  { pose proof HT5 as HT5'. rewrite (h_lpt _ _ _ _ CH) in HT5'.
    destruct (turbine_works _ _ _ _ _ _ _ _ _ HT5') as (_ & f & _ & _ & _ & Ff & _ & _). eauto. }
  destruct Ff as (f & Ff).
  assert (RT : 0 < ram_T g x).
  { unfold ram_T. apply Rmult_lt_0_compat; auto. pose proof (kM_pos g (x_M x) G). lra. }
  assert (IR : 0 < in_rec (e_inlet e)) by nra.
  destruct (C57_inlet (e_inlet e) g c r (ram_T g x) (ram_P g x) (ram_T g x) (ram_P g x) x G C I1 IR I2 IC Hp RT)
    as (T2 & m2 & t2 & u2 & IE & _ & _ & _ & _ & _ & _ & EQ & _).
  assert (HI : j_Tt (c_inlet cy) = Some T2).
  { rewrite (h_inlet _ _ _ _ CH), S.
    change (ram_out (flow_of g c r (ram_T g x) (ram_P g x))) with (at_station (ram_T g x) (ram_P g x)). rewrite IE. reflexivity. }
  destruct (FL f T5 T2 c SC Ff HI HT5) as (T45 & Tf' & k & H45 & HTf' & HK & BAL).
  rewrite HTf in HTf'. injection HTf' as <-.
  exists f, h9, u9, h19, u19, k, T45, T5.
  repeat (split; [assumption |]).
  split. { unfold shaft in HK. destruct (c_taken cy); auto. injection HK as <-. reflexivity. }
  split; [assumption |]. split; [assumption |].
  replace (u9 ^ 2) with (u9 * u9) by ring. replace (u19 ^ 2) with (u19 * u19) by ring.
  rewrite E9, E19, BAL. rewrite (EQ IP). f_equal. f_equal.
  unfold ram_T. rewrite HU. unfold speed, sound.
  replace ((x_M x * sqrt (g * r * x_T x)) ^ 2) with (x_M x ^ 2 * (g * r * x_T x)).
  2:{ rewrite Rpow_mult_distr, <- (Rsqr_pow2 (sqrt _)), Rsqr_sqrt; auto. left. repeat apply Rmult_lt_0_compat; lra. }
  unfold perfect in PF. rewrite <- PF. field.
Qed.
Lemma npow_neg : forall x y, x < 0 -> npow (Some x) y = None.
Proof.
  intros x [y|] H; unfold npow; auto. destruct (Rltb 0 x) eqn:E; [apply Rltb_true in E; lra |].
  destruct (Rltb x 0) eqn:E2; auto. apply Rltb_false in E2. lra.
Qed.
Lemma no_pressure : forall q s x i h, pt i = None -> j_h (expansion q s x i) = Some h -> False.
Proof.
  intros q s x i h P H.
  assert (E : j_h (expansion q s x i) = nmul (s_cp s) (ndiv (j_Tt (expansion q s x i))
     (nadd (Some 1) (nmul (nmul (ndiv (nsub (s_gamma s) (Some 1)) (Some 2)) None) None)))).
  { unfold expansion. rewrite P. cbn [nmul nltb ndiv npow nsub nsqrt nleb]. reflexivity. }
  rewrite E in H. ninv. discriminate.
Qed.
(** an engine whose fan turbine would have to take more than all the heat left reports a thrust
    that is not a number, and burns no fuel *)
Theorem C58_exhausted : forall e x T45 T5, let cy := cycle_of false e x in
  tu_Tt (c_hpt cy) = Some T45 -> 0 < T45 -> tu_Tt (c_lpt cy) = Some T5 -> T5 < 0 ->
  evaluate e x = NetO None (Some 0).
Proof.
  intros e x T45 T5. rewrite evaluate_eq. pose proof (cycle_chain false e x) as CH. cbv zeta.
  revert CH. generalize (cycle_of false e x) as cy. intros cy CH H45 P45 H5 N5.
  assert (PT : tu_Pt (c_lpt cy) = None).
  { assert (E : tu_Pt (c_lpt cy) = 
      (nmul (pt (turb_out (c_hpt cy))) (npow (ndiv (tu_Tt (c_lpt cy)) (tt (turb_out (c_hpt cy))))
         (ndiv (s_gamma (c_stream cy)) (nmul (nsub (s_gamma (c_stream cy)) (Some 1)) (Some (tu_eff (e_lpt e)))))))).
    { rewrite (h_lpt _ _ _ _ CH). reflexivity. }
    rewrite E. clear E. unfold turb_out at 2. cbn [tt]. rewrite H5, H45, ndiv_some by lra.
    rewrite npow_neg; [destruct (pt (turb_out (c_hpt cy))); reflexivity |].
    unfold Rdiv. assert (0 < / T45) by (apply Rinv_0_lt_compat; auto). nra. }
  assert (U : j_u (c_core cy) = None).
  { destruct (j_u (c_core cy)) as [u|] eqn:EU; auto. exfalso.
    rewrite (h_core _ _ _ _ CH) in EU. destruct (jet_energy _ _ _ _ _ EU) as (h & ht & HH & _).
    refine (no_pressure _ _ _ _ _ _ HH). exact PT. }
  assert (TH : to_thrust (thrust (e_thrust e) (c_stream cy) x (c_inputs cy)) = None).
  { destruct (to_thrust (thrust (e_thrust e) (c_stream cy) x (c_inputs cy))) as [F|] eqn:HF; auto. exfalso.
    destruct (thrust_inv _ _ _ _ _ HF) as (v & b & m & V & _).
    destruct (nd_inv _ _ _ _ _ V) as (g' & tc & tf & u9 & p9 & r9 & u19 & p19 & r19 & G' & _ & _ & U9 & _).
    rewrite (h_inputs _ _ _ _ CH) in U9. cbn [ti_core] in U9. rewrite U in U9. discriminate. }
  rewrite TH, (fuel_lost _ _ _ _ TH). reflexivity.
Qed.
(** an engine that burns (its compressors do not heat the air above the turbine inlet
    temperature, its fuel is hot enough) and whose turbines are not exhausted has a thrust and a
    fuel flow *)
Theorem C58_runs : forall e x g c h, proper e -> flying x -> fluid_at (e_fluid e) x g c -> 1 < g -> 0 < c ->
  in_comp (e_inlet e) = false -> 0 < in_pr (e_inlet e) -> 0 < in_rec (e_inlet e) -> 0 < in_eff (e_inlet e) ->
  e_take e = None -> e_kept e = None -> 0 <= e_bypass e -> x_u x <> 0 ->
  th_mdhc (e_thrust e) = Some h -> 0 < th_Tref (e_thrust e) -> 0 < th_Pref (e_thrust e) ->
  let T0 := x_T x * (1 + (g - 1) / 2 * x_M x ^ 2) in
  let T2 := T0 * Rpower (in_pr (e_inlet e) * in_rec (e_inlet e)) ((g - 1) / (g * in_eff (e_inlet e))) in
  let Tl := behind (e_lpc e) g T2 in let T3 := behind (e_hpc e) g Tl in
  let Tf := behind (e_fan e) g T2 in let T4 := cb_Tt4 (e_comb e) in
  let heat := cb_eff (e_comb e) * cb_fuel (e_comb e) in
  T3 <= T4 -> c * T4 < heat ->
  let f := c * (T4 - T3) / (heat - c * T4) in
  let T45 := T4 - (T3 - Tl) / ((1 + f) * tu_mech (e_hpt e)) in
  let T5 := T45 - ((Tl - T2) + e_bypass e * (Tf - T2)) / ((1 + f) * tu_mech (e_lpt e)) in
  0 < T45 -> 0 < T5 ->
  exists F W, evaluate e x = NetO (Some F) (Some W) /\ 0 <= W.
Proof.
  intros e x g c h PR FY FA G C IC I1 I2 I3 ET EK EB HU HM QT QP T0 T2 Tl T3 Tf T4 heat L1 L2 f T45 T5 P45 P5.
  rewrite evaluate_eq. pose proof (cycle_chain false e x) as CHN.
  pose proof (cycle_runs false e x g c) as RUN. cbv zeta in RUN. revert CHN RUN. generalize (cycle_of false e x) as cy. intros cy CHN RUN.
  pose proof FY as FY'. destruct FY as [Fp FT FM].
  assert (RT : 0 < ram_T g x) by (apply ram_pos; [constructor|]; auto).
  assert (RP : 0 < ram_P g x) by (apply ram_pos; [constructor|]; auto).
  assert (T0E : T0 = ram_T g x) by (unfold T0, ram_T; ring).
  assert (PT2 : 0 < T2) by (unfold T2; rewrite T0E; apply Rmult_lt_0_compat; auto; apply Rpower_pos).
  set (P2 := Rmax (x_p x) (ram_P g x * in_pr (e_inlet e) * in_rec (e_inlet e))).
  assert (PP2 : 0 < P2) by (apply Rlt_le_trans with (x_p x); auto; apply Rmax_l).
  assert (INL : j_Tt (c_inlet cy) = Some T2 /\ j_Pt (c_inlet cy) = Some P2).
  { rewrite (h_inlet _ _ _ _ CHN), (h_stream _ _ _ _ CHN), (ram_some _ _ _ _ FA G).
    change (ram_out (flow_of g c (fl_R (e_fluid e)) (ram_T g x) (ram_P g x))) with (at_station (ram_T g x) (ram_P g x)).
    rewrite inlet_some by auto. cbv zeta. cbn [j_Tt j_Pt]. rewrite exit_p_max. unfold inlet_T, T2. rewrite T0E. auto. }
  destruct INL as [IT IP].
  assert (SH : shaft (c_taken cy) = Some 0).
  { rewrite (h_taken _ _ _ _ CHN), ET, EK. reflexivity. }
  pose proof PR as PR'. destruct PR as [R1 R2 R3 R4 R5 R6 R7 R8 R9].
  assert (F0 : 0 <= f).
  { unfold f. apply Rmult_le_pos; [nra | left; apply Rinv_0_lt_compat; cbv zeta in L2; fold heat in L2; lra]. }
  assert (E45 : T4 - c * (T3 - Tl) / ((1 + f) * tu_mech (e_hpt e) * c) = T45) by (unfold T45; field; lra).
  assert (E5 : T45 - (c * (Tl - T2) + 0 + e_bypass e * (c * (Tf - T2))) / ((1 + f) * tu_mech (e_lpt e) * c) = T5) by (unfold T5; field; lra).
  specialize (RUN T2 P2 0 PR' FY' FA G C IT IP PT2 PP2 SH). fold Tl in RUN. fold T3 in RUN. fold Tf in RUN. fold T4 in RUN. fold heat in RUN.
  fold f in RUN. rewrite E45, E5 in RUN. specialize (RUN L1 L2 P45 P5).
  destruct RUN as (Q45 & Q5 & _ & _ & PQ5 & CF & CL & CH & CFa & _ & CLT & CS & CC & CN).
  assert (PTl : 0 < Tl) by (apply behind_pos; auto).
  assert (PTf : 0 < Tf) by (apply behind_pos; auto).
  assert (PFP : 0 < P2 * co_pr (e_fan e)) by (apply Rmult_lt_0_compat; [auto | apply R3]).
  assert (PLP : 0 < P2 * co_pr (e_lpc e)) by (apply Rmult_lt_0_compat; [auto | apply R1]).
  rewrite CS in CC, CN. rewrite expansion_some in CC by auto. rewrite expansion_some in CN by auto. cbv zeta in CC, CN.
  assert (B1 : 1 + e_bypass e <> 0) by lra.
  assert (GM : g * x_M x <> 0) by (apply Rgt_not_eq, Rmult_lt_0_compat; lra).
  assert (LT : co_Tt (c_lpc cy) = Some Tl /\ co_Pt (c_lpc cy) = Some (P2 * co_pr (e_lpc e))).
  { split.
    - change (co_Tt (c_lpc cy)) with (tt (comp_out (c_lpc cy))). rewrite CL. reflexivity.
    - change (co_Pt (c_lpc cy)) with (pt (comp_out (c_lpc cy))). rewrite CL. reflexivity. }
  destruct LT as [LT LP].
  assert (ND : exists v, to_nd (thrust (e_thrust e) (c_stream cy) x (c_inputs cy)) = Some v).
  { unfold thrust. cbn [to_nd].
    rewrite (h_inputs _ _ _ _ CHN). cbn [ti_core ti_fan ti_through_core ti_through_fan].
    rewrite CC, CN, CS. cbn [j_u j_area j_P s_gamma flow_of].
    repeat first [rewrite nadd_ss | rewrite nsub_ss | rewrite nmul_ss | rewrite ndiv_some by (auto; lra)]. eauto. }
  destruct ND as (v & ND).
  assert (MD : exists m, to_mdot (thrust (e_thrust e) (c_stream cy) x (c_inputs cy)) = Some m).
  { unfold thrust. cbn [to_mdot].
    rewrite (h_inputs _ _ _ _ CHN). cbn [ti_Tref ti_Pref].
    rewrite LT, LP, HM. rewrite !ndiv_some by lra. rewrite nsqrt_some by (left; apply Rdiv_lt_0_compat; lra). cbn [nmul]. eauto. }
  destruct MD as (m & MD).
  assert (EF : exists F, to_thrust (thrust (e_thrust e) (c_stream cy) x (c_inputs cy)) = Some F).
  { rewrite thrust_eq, ND, MD, (h_inputs _ _ _ _ CHN). cbn [ti_bypass nmul nadd]. eauto. }
  destruct EF as (F' & EF).
  assert (EW : exists W, to_fuel (thrust (e_thrust e) (c_stream cy) x (c_inputs cy)) = Some W /\ 0 <= W).
  { rewrite fuel_eq. match goal with |- context [nfmax ?w _] => destruct w as [y|] end; cbn [nfmax nmul]; unfold hour; rewrite ndiv_some by lra; eexists; (split; [reflexivity |]).
    - pose proof (Rmax_r y 0). unfold Rdiv. rewrite Rmult_1_r. apply Rmult_le_pos; lra.
    - lra. }
  destruct EW as (W & EW & W0). exists F', W. split; auto.
  rewrite EF, EW. reflexivity.
Qed.

(** ** C59: the exhaust nozzle *)
Theorem C59_nozzle : forall q g c r T P T0 P0 x, 1 < g -> 0 < c -> 0 < r -> perfect g c r ->
  0 < T0 -> 0 < P0 -> 0 < T -> 0 < P -> 0 < no_pr q -> 0 < x_p x ->
  let o := expansion q (flow_of g c r T0 P0) x (at_station T P) in
  exists T' P' m t pe u rho area,
    o = Jet (Some T') (Some P') (Some (c * T')) (Some m) (Some t) (Some (c * t)) (Some u) (Some pe)
            (Some rho) (Some area) /\
    P' = Rmax (x_p x) (P * no_pr q) /\ T' = T * isentropic_T g (Rpower (no_pr q) (no_eff q)) /\
    0 < m <= 1 /\ 0 < t /\
    (m = 1 <-> choking g <= P' / x_p x) /\
    (m < 1 -> pe = x_p x) /\ (m = 1 -> pe = P' / choking g) /\ x_p x <= pe /\
    T' = t * (1 + (g - 1) / 2 * m ^ 2) /\
    (x_p x < P' -> P' = pe * isentropic_P g (T' / t)) /\
    (P' = x_p x -> m = 1 / 1000) /\
    u = speed g r t m /\ rho = density r t pe.
Proof.
  intros q g c r T P T0 P0 x G C HR PF H1 H2 H3 H4 H5 H6 o.
  unfold o. rewrite expansion_some by auto. cbv zeta. rewrite exit_p_max.
  set (P' := Rmax (x_p x) (P * no_pr q)).
  assert (LP : x_p x <= P') by apply Rmax_l.
  set (Q := P' / x_p x).
  assert (EQ : P' = x_p x * Q) by (unfold Q; field; lra).
  assert (Q1 : 1 <= Q).
  { apply Rmult_le_reg_l with (x_p x); auto. rewrite <- EQ. lra. }
  pose proof (choking_gt1 g G) as CH.
  pose proof (nozzle_M_range g Q G) as MR. set (m := nozzle_M g Q) in *.
  set (T' := nozzle_T q g T).
  assert (T'0 : 0 < T') by (unfold T', nozzle_T; apply Rmult_lt_0_compat; auto; apply Rpower_pos).
  pose proof (kM_pos g m G) as KM. set (B := 1 + (g - 1) / 2 * m * m) in *.
  assert (TB : 0 < T' / B) by (apply Rdiv_lt_0_compat; lra).
  do 8 eexists. split; [reflexivity |]. split; [reflexivity |].
  split. { unfold T', nozzle_T, isentropic_T. rewrite Rpower_mult. do 2 f_equal. ring. }
  split; auto. split; auto.
  assert (M1 : m = 1 <-> choking g <= Q).
  { unfold m, nozzle_M. destruct (Rltb 1 Q) eqn:E1.
    - apply Rltb_true in E1. destruct (Rltb Q (choking g)) eqn:E2.
      + apply Rltb_true in E2. pose proof (proj2 (mach_lt1 g Q G Q1) E2). split; intro; lra.
      + apply Rltb_false in E2. split; intro; lra.
    - apply Rltb_false in E1. split; intro; lra. }
  split; auto.
  assert (PE : nozzle_P g (x_p x) Q = if Rltb Q (choking g) then x_p x else P' / choking g).
  { unfold nozzle_P. rewrite EQ. reflexivity. }
  split. { intro L. rewrite PE. destruct (Rltb Q (choking g)) eqn:E; auto. apply Rltb_false in E. apply M1 in E. lra. }
  split. { intro L. rewrite PE. destruct (Rltb Q (choking g)) eqn:E; auto. apply Rltb_true in E. apply M1 in L. lra. }
  split. { rewrite PE. destruct (Rltb Q (choking g)) eqn:E; [lra |]. apply Rltb_false in E. rewrite EQ.
    apply Rmult_le_reg_r with (choking g); [lra |]. replace (x_p x * Q / choking g * choking g) with (x_p x * Q) by (field; lra). nra. }
  split. { unfold Rdiv at 1. replace (1 + (g - 1) / 2 * m ^ 2) with B by (unfold B; ring). field. lra. }
  split.
  { intro L. assert (Q2 : 1 < Q) by (apply Rmult_lt_reg_l with (x_p x); auto; rewrite <- EQ; lra).
    unfold isentropic_P. replace (T' / (T' / B)) with B by (field; lra). rewrite PE. destruct (Rltb Q (choking g)) eqn:E.
    - unfold B, m, nozzle_M. replace (Rltb 1 Q) with true by (symmetry; apply Rltb_true; auto). rewrite E, mach_P by lra. auto.
    - apply Rltb_false in E. apply M1 in E. unfold B. rewrite E.
      replace (1 + (g - 1) / 2 * 1 * 1) with ((g + 1) / 2) by field. fold (choking g). field. lra. }
  split. { intro L. assert (Q2 : Q = 1) by (unfold Q; rewrite L; field; lra).
    unfold m, nozzle_M. rewrite Q2. replace (Rltb 1 1) with false by (symmetry; apply Rltb_false; lra). reflexivity. }
  split; [| reflexivity].
  unfold speed, sound.
  assert (E : 2 * (c * T' - c * (T' / B)) = m * m * (g * r * (T' / B))).
  { unfold perfect in PF. rewrite <- PF. 
    replace T' with (T' / B * B) at 1 by (field; lra). unfold B at 2. field. lra. }
  rewrite E, sqrt_mult; [| nra |].
  - rewrite sqrt_square by lra. reflexivity.
  - left. apply Rmult_lt_0_compat; [apply Rmult_lt_0_compat|]; lra.
Qed.
(** the mass flow through the exit is the mass flow captured from the free stream *)
Theorem C59_mass : forall q fl g c T P x rho u area,
  fluid_at fl x g c -> 1 < g -> 0 < c -> 0 < fl_R fl -> perfect g c (fl_R fl) ->
  0 < T -> 0 < P -> 0 < no_pr q -> flying x -> x_p x < P * no_pr q ->
  let o := expansion q (ram fl x) x (at_station T P) in
  j_rho o = Some rho -> j_u o = Some u -> j_area o = Some area ->
  rho * u * area = flux g (fl_R fl) (x_T x) (x_p x) (x_M x).
Proof.
  intros q fl g c T P x rho u area FA G C HR PF H1 H2 H3 FY LP o HRo HU HA.
  destruct (ram_pos x g FY G) as [RT RP]. destruct FY as [Fp FT FM].
  set (r := fl_R fl) in *.
  assert (EO : o = expansion q (flow_of g c r (ram_T g x) (ram_P g x)) x (at_station T P)) by (unfold o; rewrite (ram_some _ _ _ _ FA G); reflexivity).
  destruct (C59_nozzle q g c r T P (ram_T g x) (ram_P g x) x) as (T' & P' & m & t & pe & u' & rho' & area' & E & EP & ET & M0 & t0 & _ & _ & _ & PPE & TT & IS & _ & EU & ER); auto.
  assert (A : j_area o = Some (fmR g (x_M x) / fmR g m * (1 / (P' / ram_P g x)) * sqrt (T' / ram_T g x))).
  { rewrite EO. pose proof E as E'. rewrite expansion_some in E' by auto. cbv zeta in E'. rewrite expansion_some by auto. cbv zeta. cbn [j_area].
    injection E'. intros _ _ _ _ _ _ <- _ <- <-. reflexivity. }
  rewrite EO, E in HRo, HU. cbn in HRo, HU. injection HRo as <-. injection HU as <-.
  rewrite A in HA. injection HA as <-.
  assert (LP' : x_p x < P') by (rewrite EP; apply Rlt_le_trans with (P * no_pr q); auto; apply Rmax_r).
  specialize (IS LP').
  assert (BB : T' / t = Bof g m) by (unfold Bof; rewrite TT; field; lra).
  assert (KM : 1 <= Bof g m) by (apply kM_pos; auto).
  assert (Et : t = T' / Bof g m).
  { replace T' with (t * Bof g m) by (rewrite <- BB; field; lra). field. lra. }
  assert (T'0 : 0 < T') by (replace T' with (t * Bof g m) by (rewrite <- BB; field; lra); apply Rmult_lt_0_compat; lra).
  assert (P'0 : 0 < P') by lra.
  pose proof (Rpower_pos (Bof g m) (g / (g - 1))) as RB.
  assert (Ep : pe = P' / Rpower (Bof g m) (g / (g - 1))).
  { unfold isentropic_P in IS. rewrite BB in IS. rewrite IS. field. lra. }
  assert (FX : rho' * u' = flux g r (T' / Bof g m) (P' / Rpower (Bof g m) (g / (g - 1))) m).
  { rewrite ER, EU, <- Et, <- Ep. reflexivity. }
  rewrite FX, flux_fm by (auto; lra).
  assert (FX0 : flux g r (x_T x) (x_p x) (x_M x) = flux g r (ram_T g x / Bof g (x_M x)) (ram_P g x / Rpower (Bof g (x_M x)) (g / (g - 1))) (x_M x)).
  { assert (1 <= Bof g (x_M x)) by (apply kM_pos; auto). pose proof (Rpower_pos (Bof g (x_M x)) (g / (g - 1))).
    f_equal; unfold ram_T, ram_P; fold (Bof g (x_M x)); field; lra. }
  rewrite FX0, flux_fm by (auto; lra).
  pose proof (fmR_pos g m ltac:(lra)). pose proof (fmR_pos g (x_M x) FM).
  rewrite (sqrt_div T' (ram_T g x)) by lra.
  pose proof (sqrt_lt_R0 _ T'0). pose proof (sqrt_lt_R0 _ RT).
  pose proof (Rpower_pos ((g + 1) / 2) ((g + 1) / (2 * (g - 1)))).
  set (K := Rpower ((g + 1) / 2) ((g + 1) / (2 * (g - 1)))) in *.
  field. repeat split; lra.
Qed.

(** ** C63: the mass-flow function *)
Theorem C63_function : forall g M, 1 < g ->
  fm_id (Some 1) (Some g) = Some 1 /\
  (forall N, 0 < M -> M < N -> N <= 1 -> exists a b, fm_id (Some M) (Some g) = Some a /\ fm_id (Some N) (Some g) = Some b /\ a < b) /\
  (forall N, 1 <= M -> M < N -> exists a b, fm_id (Some M) (Some g) = Some a /\ fm_id (Some N) (Some g) = Some b /\ b < a).
Proof.
  intros g M G. split; [rewrite fm_some by auto; fold (fmR g 1); rewrite fm_one; auto |]. split; intros.
  - exists (fmR g M), (fmR g N). rewrite !fm_some by auto. split; auto. split; auto. apply fm_up; auto.
  - exists (fmR g M), (fmR g N). rewrite !fm_some by auto. split; auto. split; auto. apply fm_down; auto.
Qed.
(** so for given stagnation conditions the flow per area is largest at Mach 1, where the
    function is 1: it is the flow as a fraction of the choked flow *)
Theorem C63_fraction : forall g r Tt Pt M v, 1 < g -> 0 < r -> 0 < Tt -> 0 < Pt -> 0 < M ->
  let T N := Tt / (1 + (g - 1) / 2 * N ^ 2) in
  let P N := Pt / isentropic_P g (1 + (g - 1) / 2 * N ^ 2) in
  fm_id (Some M) (Some g) = Some v ->
  flux g r (T M) (P M) M = v * flux g r (T 1) (P 1) 1 /\ 0 < v <= 1.
Proof.
  intros g r Tt Pt M v G HR HT HP HM T P E. rewrite fm_some in E by auto. fold (fmR g M) in E. injection E as <-.
  assert (F : forall N, 0 <= N -> flux g r (T N) (P N) N = Pt / sqrt Tt * sqrt (g / r) / Rpower ((g + 1) / 2) ((g + 1) / (2 * (g - 1))) * fmR g N).
  { intros N N0. rewrite <- flux_fm by auto. unfold T, P, isentropic_P, Bof. rewrite !(Rmult_assoc ((g - 1) / 2) N N).
    replace (N * N) with (N ^ 2) by ring. reflexivity. }
  split.
  - rewrite !F by lra. rewrite fm_one by auto. ring.
  - split; [apply fmR_pos; auto |]. destruct (Rtotal_order M 1) as [L | [-> | L]].
    + rewrite <- (fm_one g G). left. apply fm_up; auto; lra.
    + rewrite fm_one; auto; lra.
    + apply Rle_trans with (fmR g 1); [left; apply fm_down; auto; lra | rewrite fm_one; auto; lra].
Qed.

(** ** C60: thrust, throttle and fuel *)
(** core mass flow of one engine *)
Definition core_flow (e : turbofan) (x : flight) : num :=
  let cy := cycle_of false e x in to_mdot (thrust (e_thrust e) (c_stream cy) x (c_inputs cy)).
(** the thrust is the rate of change of momentum of the two streams plus the pressure forces on
    the exits; [A0] is the free-stream area of the core stream tube *)
Theorem C60_momentum : forall e x g c F A0 m, let r := fl_R (e_fluid e) in let cy := cycle_of false e x in
  fluid_at (e_fluid e) x g c -> 1 < g -> 0 < r -> 0 < x_T x -> 0 < x_p x -> 1 + e_bypass e <> 0 ->
  x_a x = sound g r (x_T x) -> x_u x = x_M x * x_a x ->
  n_thrust (evaluate e x) = Some F ->
  core_flow e x = Some m -> density r (x_T x) (x_p x) * x_u x * A0 = m ->
  exists u9 p9 r9 u19 p19 r19,
    j_u (c_core cy) = Some u9 /\ j_P (c_core cy) = Some p9 /\ j_area (c_core cy) = Some r9 /\
    j_u (c_fann cy) = Some u19 /\ j_P (c_fann cy) = Some p19 /\ j_area (c_fann cy) = Some r19 /\
    F = e_engines e * x_throttle x *
        ((m * (u9 - x_u x) + (p9 - x_p x) * (r9 * A0))
         + (e_bypass e * m * (u19 - x_u x) + (p19 - x_p x) * (r19 * (e_bypass e * A0)))).
Proof.
  intros e x g c F A0 m. rewrite evaluate_eq. unfold core_flow. cbn [n_thrust]. pose proof (cycle_chain false e x) as CH. cbv zeta.
  revert CH. generalize (cycle_of false e x) as cy. set (r := fl_R (e_fluid e)). intros cy CH FA G HR HT Hp HB HA HU HF HM HD.
  assert (S : c_stream cy = flow_of g c r (ram_T g x) (ram_P g x)) by (rewrite (h_stream _ _ _ _ CH); apply ram_some; auto).
  pose proof (h_inputs _ _ _ _ CH) as XI.
  destruct (momentum (e_thrust e) (c_stream cy) x (c_inputs cy) g (e_bypass e) F) as (m' & u9 & p9 & r9 & u19 & p19 & r19 & M' & A1 & A2 & A3 & A4 & A5 & A6 & K); auto.
  - rewrite S. reflexivity.
  - rewrite XI. reflexivity.
  - rewrite XI. cbn [ti_through_core]. rewrite nadd_ss, ndiv_some; auto.
  - rewrite XI. cbn [ti_through_fan]. rewrite nadd_ss, ndiv_some; auto.
  - rewrite XI in A1, A2, A3, A4, A5, A6, K. cbn [ti_core ti_fan ti_engines] in A1, A2, A3, A4, A5, A6, K. rewrite HM in M'. injection M' as <-. exists u9, p9, r9, u19, p19, r19.
    repeat (split; [assumption |]). apply K. rewrite <- HD. f_equal. f_equal. unfold density. rewrite HA. unfold sound.
    rewrite <- Rsqr_pow2, Rsqr_sqrt by (left; repeat apply Rmult_lt_0_compat; lra). field. repeat split; lra.
Qed.
(** thrust and fuel flow are proportional to the throttle; the fuel burnt is that of the burner *)
Theorem C60_throttle : forall e x F t, n_thrust (evaluate e (at_throttle 1 x)) = Some F ->
  n_thrust (evaluate e (at_throttle t x)) = Some (t * F).
Proof.
  intros e x F t. rewrite !evaluate_eq, !cycle_throttle. cbn [n_thrust]. generalize (cycle_of false e x) as cy. intros cy H.
  destruct (thrust_inv _ _ _ _ _ H) as (v & b & m & V & B & M & ->).
  rewrite thrust_eq.
  change (to_nd (thrust (e_thrust e) (c_stream cy) (at_throttle t x) (c_inputs cy))) with (to_nd (thrust (e_thrust e) (c_stream cy) (at_throttle 1 x) (c_inputs cy))).
  change (to_mdot (thrust (e_thrust e) (c_stream cy) (at_throttle t x) (c_inputs cy))) with (to_mdot (thrust (e_thrust e) (c_stream cy) (at_throttle 1 x) (c_inputs cy))).
  rewrite V, B, M. cbn [nmul nadd at_throttle x_throttle x_a]. f_equal. ring.
Qed.
Theorem C60_fuel : forall e x F f m, let cy := cycle_of false e x in
  n_thrust (evaluate e x) = Some F -> F <> 0 -> x_g x <> 0 ->
  cb_f (c_comb cy) = Some f -> core_flow e x = Some m ->
  n_fuel (evaluate e x) = Some (Rmax (f * m * e_engines e * x_throttle x * (1 - th_sfc_adj (e_thrust e))) 0).
Proof.
  intros e x F f m. rewrite evaluate_eq. unfold core_flow. cbn [n_thrust n_fuel]. pose proof (cycle_chain false e x) as CH. cbv zeta.
  revert CH. generalize (cycle_of false e x) as cy. intros cy CH HF NF NG Hf HM.
  replace (e_engines e) with (ti_engines (c_inputs cy)) by (rewrite (h_inputs _ _ _ _ CH); reflexivity).
  assert (ti_f (c_inputs cy) = Some f) by (rewrite (h_inputs _ _ _ _ CH); exact Hf).
  apply (fuel_flow (e_thrust e) (c_stream cy) x (c_inputs cy) F f m); auto.
Qed.
(** an engine that pushes backwards with zero net thrust, or with a thrust that is not a number,
    burns nothing *)
Theorem C60_no_number : forall e x, n_thrust (evaluate e x) = None -> n_fuel (evaluate e x) = Some 0.
Proof. intros e x. rewrite evaluate_eq. cbn [n_thrust n_fuel]. generalize (cycle_of false e x) as cy. intros cy H. apply fuel_lost; auto. Qed.
Theorem C60_idle_refuted : forall e x g, let cy := cycle_of false e x in
  s_gamma (c_stream cy) = Some g -> to_nd (thrust (e_thrust e) (c_stream cy) x (c_inputs cy)) = Some 0 ->
  forall f m, cb_f (c_comb cy) = Some f -> 0 < f -> core_flow e x = Some m -> 0 < m ->
  n_thrust (evaluate e x) = Some 0 /\ n_fuel (evaluate e x) = Some 0.
Proof.
  intros e x g. rewrite evaluate_eq. unfold core_flow. cbn [n_thrust n_fuel]. pose proof (cycle_chain false e x) as CH. cbv zeta.
  revert CH. generalize (cycle_of false e x) as cy. intros cy CH HG ND f m Hf F0 HM M0. pose proof (h_inputs _ _ _ _ CH) as XI.
  assert (XB : ti_bypass (c_inputs cy) = Some (e_bypass e)) by (rewrite XI; reflexivity).
  assert (XF : ti_f (c_inputs cy) = Some f) by (rewrite XI; exact Hf).
  split.
  - rewrite thrust_eq, ND, HM, XB. cbn [nmul nadd]. f_equal. ring.
  - rewrite fuel_eq, tsfc_eq, ND, XB, XF.
    rewrite nadd_ss, !nmul_ss. unfold ndiv at 3. destruct (Req_EM_T _ 0) as [_|N]; [|exfalso; apply N; ring].
    cbn [nmul nfmax]. destruct (to_thrust _); cbn; (destruct (Req_EM_T 3600 0); [lra|]); f_equal; field.
Qed.

(** ** C61: sizing *)
(** an engine sized at a flight state, evaluated there at full throttle, gives the design thrust *)
Theorem C61_design : forall e x F, e_take e = None -> x_throttle x = 1 -> 
  n_thrust (evaluate e x) = Some F -> F <> 0 ->
  n_thrust (evaluate (sized e x) x) = Some (th_design (e_thrust e)) /\
  (forall t, n_thrust (evaluate (sized e x) (at_throttle t x)) = Some (t * th_design (e_thrust e))).
Proof.
  intros e x F HT H1 HF NF.
  assert (A : n_thrust (evaluate (sized e x) x) = Some (th_design (e_thrust e))).
  { unfold evaluate in *. cbv zeta in *. cbn [n_thrust] in *.
    assert (CY : cycle_of false e x = cycle_of true e x).
    { rewrite <- (cycle_sized e x (e_thrust e) HT). destruct e; reflexivity. }
    rewrite CY in HF. set (cy := cycle_of true e x) in *.
    assert (CS : cycle_of false (sized e x) x = cy) by (unfold sized; apply cycle_sized; auto).
    rewrite CS. change (e_thrust (sized e x)) with (size_thrust (e_thrust e) (c_stream cy) x (c_inputs cy)). clear CS CY. clearbody cy.
    destruct (thrust_inv _ _ _ _ _ HF) as (v & b & m & V & B & M & E).
    destruct (mdot_inv _ _ _ _ _ M) as (h & T & P & Hh & ET & EP & NT & NP & RT & Em).
    assert (NM : m <> 0) by (intro Z; apply NF; rewrite E, Z; ring).
    destruct (size_hits (e_thrust e) (c_stream cy) x (c_inputs cy) v b T P) as (m' & _ & _ & R & _); auto.
    - intro Z. apply NF. rewrite E, H1. replace (v * x_a x * (1 + b) * m * ti_engines (c_inputs cy) * 1) with (v * x_a x * (1 + b) * ti_engines (c_inputs cy) * m) by ring. rewrite Z. ring.
    - intro Z. apply NM. rewrite Em, Z. unfold Rdiv. ring.
    - destruct RT as [RT | RT]; auto. exfalso. apply NM. rewrite Em, <- RT, sqrt_0. ring. }
  split; auto. intro t. apply C60_throttle.
  replace (at_throttle 1 x) with x; auto. destruct x. cbn in H1. rewrite H1. reflexivity.
Qed.
(** sizing again changes nothing, and the core size before does not matter *)
Theorem C61_again : forall e x, sized (sized e x) x = sized e x.
Proof.
  intros e x. unfold sized at 1. cbv zeta.
  assert (CS : cycle_of true (sized e x) x = cycle_of true e x) by reflexivity.
  rewrite CS. set (cy := cycle_of true e x).
  assert (S2 : size_thrust (e_thrust (sized e x)) (c_stream cy) x (c_inputs cy) = size_thrust (e_thrust e) (c_stream cy) x (c_inputs cy)).
  { unfold size_thrust. cbv zeta. rewrite (nd_mdhc (e_thrust (sized e x)) (e_thrust e)). reflexivity. }
  rewrite S2. reflexivity.
Qed.
Theorem C61_independent : forall e x h fl, let q := e_thrust e in
  sized (with_thrust e (ThrustP (th_Tref q) (th_Pref q) h (th_sfc_adj q) (th_design q) fl)) x = sized e x.
Proof.
  intros e x h fl q. set (e' := with_thrust e _). unfold sized. cbv zeta.
  assert (CS : cycle_of true e' x = cycle_of true e x) by reflexivity. rewrite CS.
  set (cy := cycle_of true e x).
  assert (S2 : size_thrust (e_thrust e') (c_stream cy) x (c_inputs cy) = size_thrust (e_thrust e) (c_stream cy) x (c_inputs cy)).
  { unfold size_thrust. cbv zeta. rewrite (nd_mdhc (e_thrust e') (e_thrust e)). reflexivity. }
  rewrite S2. reflexivity.
Qed.

(** ** C62: one engine out *)
Theorem C62_restored : forall e xs, snd (engine_out (e_engines e) (map (evaluate e)) xs) = xs.
Proof.
  intros e xs. unfold engine_out. cbn [snd]. induction xs as [|x xs IH]; auto. cbn [map map2].
  rewrite IH. destruct x; reflexivity.
Qed.
Theorem C62_results : forall e xs i x F W, nth_error xs i = Some x -> e_engines e <> 0 ->
  evaluate e (at_throttle 1 x) = NetO (Some F) (Some W) ->
  nth_error (fst (engine_out (e_engines e) (map (evaluate e)) xs)) i
  = Some (NetO (Some ((e_engines e - 1) * (F / e_engines e))) (Some ((e_engines e - 1) * (W / e_engines e)))).
Proof.
  intros e xs i x F W HX HN HE. unfold engine_out. cbn [fst].
  rewrite !nth_error_map, HX. cbn [option_map]. rewrite HE. cbn [n_thrust n_fuel].
  rewrite !ndiv_some by auto. cbn [nmul nsub]. do 3 f_equal; ring.
Qed.

(** ** Cases *)
Definition gas : fluid := Fluid (fun _ _ => Some 2) (fun _ _ => Some 1000) 500.
Definition sonic : flight := Flight 100000 250 1 500 500 10 1.
Definition fanjet : turbofan :=
  Turbofan gas (InletP 1 1 1 false) (CompP 4 1) (CompP 1 1) (CompP (9 / 4) 1) (CombP 1500 (9 / 10) 1 9000000)
    (TurbP 1 1) (TurbP 1 1) (NozzP 1 1) (NozzP 1 1) (ThrustP 375 225000 (Some 1) 0 1000 None) 1 2 None None.
Lemma half_power : forall y e, 0 < y -> e = / 2 -> Rpower (y * y) e = y.
Proof. intros y e H ->. rewrite Rpower_sqrt by nra. apply sqrt_square. lra. Qed.
Lemma half_power' : forall z y e, 0 < y -> z = y * y -> e = / 2 -> Rpower z e = y.
Proof. intros z y e H -> E. apply half_power; auto. Qed.
Lemma sonic_T : ram_T 2 sonic = 375. Proof. unfold ram_T, sonic; cbn; field. Qed.
Lemma sonic_P : ram_P 2 sonic = 225000.
Proof.
  unfold ram_P, sonic; cbn. replace (2 / (2 - 1)) with (INR 2) by (cbn; field).
  rewrite Rpower_pow by lra. cbn. field.
Qed.
Lemma gas_at : fluid_at gas sonic 2 1000. Proof. split; reflexivity. Qed.
Lemma gas_perfect : perfect 2 1000 500. Proof. unfold perfect. lra. Qed.
Lemma behind_one : forall e g T, behind (CompP 1 e) g T = T.
Proof. intros. unfold behind. cbn. rewrite Rpower_base1. ring. Qed.
Lemma behind_four : behind (CompP 4 1) 2 375 = 750.
Proof. unfold behind. cbn [co_pr co_eff]. rewrite (half_power' 4 2); try lra. Qed.
Lemma behind_fan : behind (CompP (9 / 4) 1) 2 375 = 562.5.
Proof. unfold behind. cbn [co_pr co_eff]. rewrite (half_power' (9 / 4) (3 / 2)); try lra. Qed.
Example C58_runs_case : exists F W, evaluate fanjet sonic = NetO (Some F) (Some W) /\ 0 <= W.
Proof.
  assert (T2 : sonic.(x_T) * (1 + (2 - 1) / 2 * x_M sonic ^ 2) * Rpower (1 * 1) ((2 - 1) / (2 * 1)) = 375).
  { rewrite Rmult_1_r, Rpower_base1. unfold sonic; cbn. field. }
  refine (C58_runs fanjet sonic 2 1000 1 _ _ gas_at _ _ _ _ _ _ _ _ _ _ _ _ _ _ _ _ _); try reflexivity; try (cbn; lra).
  - constructor; cbn; lra.
  - constructor; cbn; lra.
  - change (behind (CompP 1 1) 2 (behind (CompP 4 1) 2 (sonic.(x_T) * (1 + (2 - 1) / 2 * x_M sonic ^ 2) * Rpower (1 * 1) ((2 - 1) / (2 * 1)))) <= 1500).
    rewrite T2, behind_one, behind_four. lra.
  - cbn [e_hpc e_lpc e_fan fanjet e_inlet in_pr in_rec in_eff e_comb cb_Tt4 cb_eff cb_fuel e_hpt tu_mech].
    rewrite T2, behind_one, behind_four. lra.
  - cbn [e_hpc e_lpc e_fan fanjet e_inlet in_pr in_rec in_eff e_comb cb_Tt4 cb_eff cb_fuel e_hpt e_lpt tu_mech e_bypass].
    rewrite T2, behind_one, behind_four, behind_fan. lra.
Qed.
Example C58_first_law_case : exists F, n_thrust (evaluate fanjet sonic) = Some F /\
  fluid_at (e_fluid fanjet) sonic 2 1000 /\ perfect 2 1000 (fl_R (e_fluid fanjet)) /\
  x_u sonic = speed 2 (fl_R (e_fluid fanjet)) (x_T sonic) (x_M sonic) /\
  in_pr (e_inlet fanjet) * in_rec (e_inlet fanjet) = 1 /\ no_pr (e_core fanjet) = 1.
Proof.
  destruct C58_runs_case as (F & W & E & _). exists F. rewrite E. split; auto. split; [apply gas_at |]. split; [apply gas_perfect |].
  cbn. repeat split; try lra. unfold speed, sound. replace (2 * 500 * 250) with (500 * 500) by ring. rewrite sqrt_square by lra. ring.
Qed.
(** a jet engine without compressors, with and without a shaft power off-take *)
Definition plain (take : option take_p) (mdhc : num) : turbofan :=
  Turbofan gas (InletP 1 1 1 false) (CompP 1 1) (CompP 1 1) (CompP 1 1) (CombP 1500 1 1 12750000)
    (TurbP 1 1) (TurbP 1 1) (NozzP 1 1) (NozzP 1 1) (ThrustP 375 225000 mdhc 0 1000 None) 0 2 take None.
Definition taker : take_p := TakeP 150000 375 225000.
Lemma plain_comp : forall z tk h cy, chain z (plain tk h) sonic cy ->
  co_Tt (c_lpc cy) = Some 375 /\ co_Pt (c_lpc cy) = Some 225000.
Proof.
  intros z tk h cy CH.
  assert (S : c_stream cy = flow_of 2 1000 500 375 225000).
  { assert (E0 : c_stream cy = ram gas sonic) by (exact (h_stream _ _ _ _ CH)). rewrite E0; clear E0. rewrite (ram_some _ _ _ _ gas_at) by lra. rewrite sonic_T, sonic_P. reflexivity. }
  assert (I : jet_out (c_inlet cy) = at_station 375 225000).
  { assert (E0 : c_inlet cy = inlet (InletP 1 1 1 false) (c_stream cy) sonic (ram_out (c_stream cy))) by (exact (h_inlet _ _ _ _ CH)). rewrite E0; clear E0. rewrite S.
    change (ram_out (flow_of 2 1000 500 375 225000)) with (at_station 375 225000).
    rewrite inlet_some by (cbn; auto; lra). cbv zeta. unfold jet_out. cbn [j_Tt j_Pt]. rewrite exit_p_max. unfold inlet_T.
    cbn [in_pr in_rec in_eff]. rewrite !Rmult_1_r, Rpower_base1. unfold at_station. f_equal; f_equal; [ring |].
    apply Rmax_right. cbn. lra. }
  assert (CP : forall T P, compressor (CompP 1 1) (flow_of 2 1000 500 375 225000) (at_station T P)
     = CompO (Some T) (Some P) (Some (1000 * T)) (Some 0)).
  { intros T P. rewrite compressor_some by (cbn; lra). cbv zeta. cbn [co_pr co_eff]. rewrite Rpower_base1, !Rmult_1_r. do 2 f_equal. ring. }
  assert (L : c_lpc cy = CompO (Some 375) (Some 225000) (Some (1000 * 375)) (Some 0)).
  { assert (E0 : c_lpc cy = compressor (CompP 1 1) (c_stream cy) (jet_out (c_inlet cy))) by (exact (h_lpc _ _ _ _ CH)). rewrite E0; clear E0. rewrite S, I. apply CP. }
  rewrite L. auto.
Qed.
Lemma plain_burner : forall z tk h cy, chain z (plain tk h) sonic cy -> cb_f (c_comb cy) = Some (1 / 10).
Proof.
  intros z tk h cy CH.
  assert (S : c_stream cy = flow_of 2 1000 500 375 225000).
  { assert (E0 : c_stream cy = ram gas sonic) by (exact (h_stream _ _ _ _ CH)). rewrite E0; clear E0. rewrite (ram_some _ _ _ _ gas_at) by lra. rewrite sonic_T, sonic_P. reflexivity. }
  assert (I : jet_out (c_inlet cy) = at_station 375 225000).
  { assert (E0 : c_inlet cy = inlet (InletP 1 1 1 false) (c_stream cy) sonic (ram_out (c_stream cy))) by (exact (h_inlet _ _ _ _ CH)). rewrite E0; clear E0. rewrite S.
    change (ram_out (flow_of 2 1000 500 375 225000)) with (at_station 375 225000).
    rewrite inlet_some by (cbn; auto; lra). cbv zeta. unfold jet_out. cbn [j_Tt j_Pt]. rewrite exit_p_max. unfold inlet_T.
    cbn [in_pr in_rec in_eff]. rewrite !Rmult_1_r, Rpower_base1. unfold at_station. f_equal; f_equal; [ring |].
    apply Rmax_right. cbn. lra. }
  assert (CP : forall T P, compressor (CompP 1 1) (flow_of 2 1000 500 375 225000) (at_station T P)
     = CompO (Some T) (Some P) (Some (1000 * T)) (Some 0)).
  { intros T P. rewrite compressor_some by (cbn; lra). cbv zeta. cbn [co_pr co_eff]. rewrite Rpower_base1, !Rmult_1_r. do 2 f_equal. ring. }
  assert (L : c_lpc cy = CompO (Some 375) (Some 225000) (Some (1000 * 375)) (Some 0)).
  { assert (E0 : c_lpc cy = compressor (CompP 1 1) (c_stream cy) (jet_out (c_inlet cy))) by (exact (h_lpc _ _ _ _ CH)). rewrite E0; clear E0. rewrite S, I. apply CP. }
  assert (FN : c_fan cy = CompO (Some 375) (Some 225000) (Some (1000 * 375)) (Some 0)).
  { assert (E0 : c_fan cy = compressor (CompP 1 1) (c_stream cy) (jet_out (c_inlet cy))) by (exact (h_fan _ _ _ _ CH)). rewrite E0; clear E0. rewrite S, I. apply CP. }
  assert (H : c_hpc cy = CompO (Some 375) (Some 225000) (Some (1000 * 375)) (Some 0)).
  { assert (E0 : c_hpc cy = compressor (CompP 1 1) (c_stream cy) (comp_out (c_lpc cy))) by (exact (h_hpc _ _ _ _ CH)). rewrite E0; clear E0. rewrite S, L. apply CP. }
  assert (CB : c_comb cy = CombO (Some 1500) (Some 225000) (Some 1500000) (Some (1 / 10))).
  { assert (E0 : c_comb cy = combustor (CombP 1500 1 1 12750000) (Some 1) (c_stream cy) (comp_out (c_hpc cy))) by (exact (h_comb _ _ _ _ CH)). rewrite E0; clear E0. rewrite S, H.
    change (comp_out (CompO (Some 375) (Some 225000) (Some (1000 * 375)) (Some 0))) with (at_station 375 225000).
    rewrite combustor_some by (cbn; lra). cbn [cb_Tt4 cb_pr cb_eff cb_fuel]. f_equal; f_equal; lra. }
  rewrite CB. reflexivity.
Qed.
Lemma plain_lpt : forall z tk h k cy, chain z (plain tk h) sonic cy ->
  shaft (c_taken cy) = Some k -> let T5 := 1500 - k / 1100 in 0 < T5 ->
  c_stream cy = flow_of 2 1000 500 375 225000 /\
  co_Tt (c_lpc cy) = Some 375 /\ co_Pt (c_lpc cy) = Some 225000 /\
  turb_out (c_lpt cy) = at_station T5 (225000 * (T5 / 1500 * (T5 / 1500))) /\
  comp_out (c_fan cy) = at_station 375 225000.
Proof.
  intros z tk h k cy CH SH T5 P5.
  assert (S : c_stream cy = flow_of 2 1000 500 375 225000).
  { assert (E0 : c_stream cy = ram gas sonic) by (exact (h_stream _ _ _ _ CH)). rewrite E0; clear E0. rewrite (ram_some _ _ _ _ gas_at) by lra. rewrite sonic_T, sonic_P. reflexivity. }
  assert (I : jet_out (c_inlet cy) = at_station 375 225000).
  { assert (E0 : c_inlet cy = inlet (InletP 1 1 1 false) (c_stream cy) sonic (ram_out (c_stream cy))) by (exact (h_inlet _ _ _ _ CH)). rewrite E0; clear E0. rewrite S.
    change (ram_out (flow_of 2 1000 500 375 225000)) with (at_station 375 225000).
    rewrite inlet_some by (cbn; auto; lra). cbv zeta. unfold jet_out. cbn [j_Tt j_Pt]. rewrite exit_p_max. unfold inlet_T.
    cbn [in_pr in_rec in_eff]. rewrite !Rmult_1_r, Rpower_base1. unfold at_station. f_equal; f_equal; [ring |].
    apply Rmax_right. cbn. lra. }
  assert (CP : forall T P, compressor (CompP 1 1) (flow_of 2 1000 500 375 225000) (at_station T P)
     = CompO (Some T) (Some P) (Some (1000 * T)) (Some 0)).
  { intros T P. rewrite compressor_some by (cbn; lra). cbv zeta. cbn [co_pr co_eff]. rewrite Rpower_base1, !Rmult_1_r. do 2 f_equal. ring. }
  assert (L : c_lpc cy = CompO (Some 375) (Some 225000) (Some (1000 * 375)) (Some 0)).
  { assert (E0 : c_lpc cy = compressor (CompP 1 1) (c_stream cy) (jet_out (c_inlet cy))) by (exact (h_lpc _ _ _ _ CH)). rewrite E0; clear E0. rewrite S, I. apply CP. }
  assert (FN : c_fan cy = CompO (Some 375) (Some 225000) (Some (1000 * 375)) (Some 0)).
  { assert (E0 : c_fan cy = compressor (CompP 1 1) (c_stream cy) (jet_out (c_inlet cy))) by (exact (h_fan _ _ _ _ CH)). rewrite E0; clear E0. rewrite S, I. apply CP. }
  assert (H : c_hpc cy = CompO (Some 375) (Some 225000) (Some (1000 * 375)) (Some 0)).
  { assert (E0 : c_hpc cy = compressor (CompP 1 1) (c_stream cy) (comp_out (c_lpc cy))) by (exact (h_hpc _ _ _ _ CH)). rewrite E0; clear E0. rewrite S, L. apply CP. }
  assert (CB : c_comb cy = CombO (Some 1500) (Some 225000) (Some 1500000) (Some (1 / 10))).
  { assert (E0 : c_comb cy = combustor (CombP 1500 1 1 12750000) (Some 1) (c_stream cy) (comp_out (c_hpc cy))) by (exact (h_comb _ _ _ _ CH)). rewrite E0; clear E0. rewrite S, H.
    change (comp_out (CompO (Some 375) (Some 225000) (Some (1000 * 375)) (Some 0))) with (at_station 375 225000).
    rewrite combustor_some by (cbn; lra). cbn [cb_Tt4 cb_pr cb_eff cb_fuel]. f_equal; f_equal; lra. }
  assert (HP : c_hpt cy = TurbO (Some 1500) (Some 225000) (Some 1500000)).
  { assert (E0 : c_hpt cy = turbine (TurbP 1 1) (c_stream cy) (comb_out (c_comb cy)) (Some 0) (cb_f (c_comb cy)) (co_work (c_hpc cy)) (co_work (c_fan cy)) None) by (exact (h_hpt _ _ _ _ CH)). rewrite E0; clear E0.
    rewrite S, H, FN, CB. cbn [co_work cb_f].
    change (comb_out (CombO (Some 1500) (Some 225000) (Some 1500000) (Some (1 / 10)))) with (at_station 1500 225000).
    rewrite (turbine_some (TurbP 1 1)) with (k := 0); try reflexivity; cbn [tu_mech tu_eff]; try lra.
    replace (1500 - (0 + 0 + 0 * 0) / ((1 + 1 / 10) * 1 * 1000)) with 1500 by field.
    replace (1500 / 1500) with 1 by field. rewrite Rpower_base1. f_equal; f_equal; ring. }
  split; auto. split; [rewrite L; reflexivity |]. split; [rewrite L; reflexivity |]. split; [| rewrite FN; reflexivity].
  assert (E0 : c_lpt cy = turbine (TurbP 1 1) (c_stream cy) (turb_out (c_hpt cy)) (Some 0) (cb_f (c_comb cy)) (co_work (c_lpc cy)) (co_work (c_fan cy)) (c_taken cy)) by (exact (h_lpt _ _ _ _ CH)). rewrite E0; clear E0.
  rewrite S, HP, L, FN, CB. cbn [co_work cb_f].
  change (turb_out (TurbO (Some 1500) (Some 225000) (Some 1500000))) with (at_station 1500 225000).
  assert (ET : 1500 - (0 + k + 0 * 0) / ((1 + 1 / 10) * 1 * 1000) = T5) by (unfold T5; field).
  rewrite (turbine_some (TurbP 1 1)) with (k := k); try assumption; cbn [tu_mech tu_eff]; try lra.
  rewrite ET. unfold turb_out, at_station. cbn [tu_Tt tu_Pt]. do 3 f_equal.
  replace (2 / ((2 - 1) * 1)) with (INR 2) by (cbn; field). rewrite Rpower_pow by (apply Rdiv_lt_0_compat; lra). cbn. ring.
Qed.
(** the specific thrust of this engine, from the exhaust speed *)
Lemma plain_nd : forall z tk h k cy, chain z (plain tk h) sonic cy ->
  shaft (c_taken cy) = Some k -> let T5 := 1500 - k / 1100 in 1000 < T5 <= 1500 ->
  forall q, to_nd (thrust q (c_stream cy) sonic (c_inputs cy)) = Some (sqrt (2000 * (T5 - 1000)) / 500 - 1).
Proof.
  intros z tk h k cy CC SH T5 P5 q.
  destruct (plain_lpt z tk h k cy CC SH) as (S & L1 & L2 & LP & FN); [fold T5; lra|]. fold T5 in LP.
  assert (CH : choking 2 = 2.25).
  { unfold choking. replace (2 / (2 - 1)) with (INR 2) by (cbn; field). rewrite Rpower_pow by lra. cbn. lra. }
  assert (EX : forall T P, 0 < T -> 100000 < P <= 225000 -> exists M a,
      sqrt (P / 100000) * sqrt (P / 100000) = P / 100000 /\
      expansion (NozzP 1 1) (flow_of 2 1000 500 375 225000) sonic (at_station T P)
      = Jet (Some T) (Some P) (Some (1000 * T)) (Some M) (Some (T / sqrt (P / 100000))) (Some (1000 * (T / sqrt (P / 100000))))
            (Some (sqrt (2 * (1000 * T - 1000 * (T / sqrt (P / 100000)))))) (Some 100000) (Some (100000 / (500 * (T / sqrt (P / 100000))))) (Some a)).
  { intros T P HT HP.
    assert (Q1 : 1 < P / 100000) by lra. assert (Q2 : P / 100000 <= 2.25) by lra.
    assert (EP : exit_p (x_p sonic) (P * no_pr (NozzP 1 1)) = P).
    { rewrite exit_p_max. cbn. rewrite Rmult_1_r. apply Rmax_right. lra. }
    assert (ET : nozzle_T (NozzP 1 1) 2 T = T) by (unfold nozzle_T; cbn; rewrite Rpower_base1; ring).
    assert (EB : 1 + (2 - 1) / 2 * nozzle_M 2 (P / 100000) * nozzle_M 2 (P / 100000) = sqrt (P / 100000)).
    { unfold nozzle_M. replace (Rltb 1 (P / 100000)) with true by (symmetry; apply Rltb_true; auto). rewrite CH.
      destruct (Rltb (P / 100000) 2.25) eqn:E.
      - rewrite mach_sq by lra. replace ((2 - 1) / 2) with (/ 2) by field. apply Rpower_sqrt. lra.
      - apply Rltb_false in E. replace (P / 100000) with (1.5 * 1.5) by lra. rewrite sqrt_square by lra. lra. }
    assert (EN : nozzle_P 2 (x_p sonic) (P / 100000) = 100000).
    { unfold nozzle_P. rewrite CH. cbn [x_p sonic]. destruct (Rltb (P / 100000) 2.25) eqn:E; auto.
      apply Rltb_false in E. assert (P / 100000 = 2.25) as QE by lra. rewrite QE. lra. }
    rewrite expansion_some by (cbn; lra). cbv zeta. rewrite EP, ET. cbn [x_p sonic] in EN |- *. rewrite EB, EN.
    do 2 eexists. split; [apply sqrt_sqrt; lra | reflexivity]. }
  assert (P51 : 100000 < 225000 * (T5 / 1500 * (T5 / 1500)) <= 225000) by (split; nra).
  destruct (EX T5 (225000 * (T5 / 1500 * (T5 / 1500))) ltac:(lra) P51) as (M5 & a5 & _ & E5).
  destruct (EX 375 225000 ltac:(lra) ltac:(lra)) as (M6 & a6 & _ & E6).
  assert (EC : c_core cy = expansion (NozzP 1 1) (c_stream cy) sonic (turb_out (c_lpt cy))) by (exact (h_core _ _ _ _ CC)).
  assert (EF : c_fann cy = expansion (NozzP 1 1) (c_stream cy) sonic (comp_out (c_fan cy))) by (exact (h_fann _ _ _ _ CC)).
  rewrite S, LP, E5 in EC. rewrite S, FN, E6 in EF.
  unfold thrust. cbn [to_nd]. rewrite (h_inputs _ _ _ _ CC).
  cbn [ti_core ti_fan ti_through_core ti_through_fan e_bypass plain].
  rewrite EC, EF, S. cbn [j_u j_area j_P s_gamma flow_of sonic x_M x_u x_p].
  nsimp. f_equal.
  assert (R5 : sqrt (225000 * (T5 / 1500 * (T5 / 1500)) / 100000) = T5 / 1000).
  { replace (225000 * (T5 / 1500 * (T5 / 1500)) / 100000) with (T5 / 1000 * (T5 / 1000)) by field. apply sqrt_square. lra. }
  rewrite R5. replace (2 * (1000 * T5 - 1000 * (T5 / (T5 / 1000)))) with (2000 * (T5 - 1000)) by (field; lra).
  field.
Qed.
Lemma plain_mdot : forall z tk h k cy q, chain z (plain tk h) sonic cy -> shaft (c_taken cy) = Some k ->
  1000 < 1500 - k / 1100 <= 1500 -> th_Tref q = 375 -> th_Pref q = 225000 ->
  to_mdot (thrust q (c_stream cy) sonic (c_inputs cy)) = th_mdhc q.
Proof.
  intros z tk h k cy q CC SH R H1 H2. destruct (plain_lpt z tk h k cy CC SH) as (S & L1 & L2 & _); [lra |].
  unfold thrust. cbn [to_mdot]. rewrite (h_inputs _ _ _ _ CC). cbn [ti_Tref ti_Pref]. rewrite L1, L2, H1, H2.
  nsimp. replace (375 / 375) with 1 by field. rewrite nsqrt_some, sqrt_1 by lra.
  destruct (th_mdhc q) as [m|]; [| reflexivity]. nsimp. f_equal. field.
Qed.
Lemma plain_thrust : forall z tk h k cy q m, chain z (plain tk h) sonic cy -> shaft (c_taken cy) = Some k ->
  1000 < 1500 - k / 1100 <= 1500 -> th_Tref q = 375 -> th_Pref q = 225000 -> th_mdhc q = Some m ->
  to_thrust (thrust q (c_stream cy) sonic (c_inputs cy)) = Some ((sqrt (2000 * (1500 - k / 1100 - 1000)) / 500 - 1) * 500 * m * 2).
Proof.
  intros z tk h k cy q m CC SH R H1 H2 H3.
  rewrite thrust_eq, (plain_mdot z tk h k cy q CC SH R H1 H2), (plain_nd z tk h k cy CC SH R q), H3.
  rewrite (h_inputs _ _ _ _ CC). cbn [ti_bypass ti_engines e_bypass e_engines plain x_a sonic x_throttle].
  nsimp. f_equal. ring.
Qed.
Lemma plain_design : forall tk h, e_thrust (sized (plain tk h) sonic) = ThrustP 375 225000 (Some 1) 0 1000 (Some 1).
Proof.
  intros tk h. unfold sized. cbv zeta. cbn [e_thrust with_thrust].
  pose proof (cycle_chain true (plain tk h) sonic) as CC. revert CC. generalize (cycle_of true (plain tk h) sonic) as cy. intros cy CC.
  assert (SH : shaft (c_taken cy) = Some 0) by (rewrite (h_taken _ _ _ _ CC); reflexivity).
  destruct (plain_lpt true tk h 0 cy CC SH) as (S & L1 & L2 & _); [lra |].
  cbn [plain e_thrust].
  assert (ND : to_nd (thrust (ThrustP 375 225000 h 0 1000 None) (c_stream cy) sonic (c_inputs cy)) = Some 1).
  { rewrite (plain_nd true tk h 0 cy CC SH) by lra. f_equal.
    replace (2000 * (1500 - 0 / 1100 - 1000)) with (1000 * 1000) by field. rewrite sqrt_square by lra. field. }
  unfold size_thrust. cbv zeta. rewrite ND. rewrite (h_inputs _ _ _ _ CC). cbn [ti_Tref ti_Pref ti_bypass ti_engines e_bypass e_engines plain].
  rewrite L1, L2. cbn [th_Tref th_Pref th_design th_sfc_adj x_a sonic]. nsimp.
  replace (375 / 375) with 1 by field. rewrite nsqrt_some, sqrt_1 by lra. nsimp. f_equal; f_equal; field.
Qed.
Example C61_case : exists F, e_take (plain None (Some 7)) = None /\ n_thrust (evaluate (plain None (Some 7)) sonic) = Some F /\ F <> 0 /\
  n_thrust (evaluate (sized (plain None (Some 7)) sonic) sonic) = Some 1000.
Proof.
  assert (E : n_thrust (evaluate (plain None (Some 7)) sonic) = Some 7000).
  { rewrite evaluate_eq. cbn [n_thrust]. pose proof (cycle_chain false (plain None (Some 7)) sonic) as CC. revert CC.
    generalize (cycle_of false (plain None (Some 7)) sonic) as cy. intros cy CC.
    rewrite (plain_thrust false None (Some 7) 0 cy _ 7 CC); try reflexivity; try lra.
    - f_equal. replace (2000 * (1500 - 0 / 1100 - 1000)) with (1000 * 1000) by field. rewrite sqrt_square by lra. field.
    - rewrite (h_taken _ _ _ _ CC). reflexivity. }
  exists 7000. split; auto. split; auto. split; [lra |].
  exact (proj1 (C61_design (plain None (Some 7)) sonic 7000 eq_refl eq_refl E ltac:(lra))).
Qed.
(** with a shaft power off-take the sized engine does not give the design thrust: the sizing
    leaves the off-take out *)
Theorem C61_off_take_refuted : exists e x t F, e_take e = Some t /\ x_throttle x = 1 /\ 0 < th_design (e_thrust e) /\
  n_thrust (evaluate (sized e x) x) = Some F /\ F < th_design (e_thrust e).
Proof.
  exists (plain (Some taker) None), sonic, taker, ((sqrt (2000 * (1500 - 150000 / 1100 - 1000)) / 500 - 1) * 500 * 1 * 2).
  split; [reflexivity |]. split; [reflexivity |]. split; [cbn; lra |]. split.
  - rewrite evaluate_eq. cbn [n_thrust]. rewrite plain_design.
    assert (EC : chain false (plain (Some taker) (Some 1)) sonic (cycle_of false (sized (plain (Some taker) None) sonic) sonic)).
    { pose proof (cycle_chain false (sized (plain (Some taker) None) sonic) sonic) as CC. revert CC.
      generalize (cycle_of false (sized (plain (Some taker) None) sonic) sonic) as cy. intros cy CC.
      destruct CC as [q1 q2 q3 q4 q5 q6 q7 q8 q9 q10 q11 q12]. rewrite plain_design in q7. constructor; assumption. }
    revert EC. generalize (cycle_of false (sized (plain (Some taker) None) sonic) sonic) as cy. intros cy CC.
    assert (SH : shaft (c_taken cy) = Some 150000).
    { rewrite (h_taken _ _ _ _ CC). cbn [e_take plain shaft th_mdhc e_thrust].
      destruct (plain_comp _ _ _ _ CC) as [A B].
      unfold off_take, comp_out. cbn [tt pt]. rewrite A, B. cbn [sp_draw sp_Tref sp_Pref taker].
      destruct (Req_EM_T 150000 0); [lra |]. nsimp. replace (375 / 375) with 1 by field. rewrite nsqrt_some, sqrt_1 by lra. nsimp.
      destruct (Req_EM_T (1 * 1 * (225000 / 225000)) 0); [lra |]. try rewrite ndiv_some by lra. f_equal. field. }
    rewrite (plain_thrust false (Some taker) (Some 1) 150000 cy _ 1 CC SH); try reflexivity; try lra.
  - change (th_design (e_thrust (plain (Some taker) None))) with 1000.
    assert (sqrt (2000 * (1500 - 150000 / 1100 - 1000)) < 1000); [| lra].
    assert (Q : sqrt (2000 * (1500 - 150000 / 1100 - 1000)) < sqrt (1000 * 1000)) by (apply sqrt_lt_1; lra).
    rewrite sqrt_square in Q by lra. exact Q.
Qed.

(** ** C59: the supersonic nozzle expands to the ambient pressure without losses (below Mach 10),
    and passes the captured mass flow *)
Theorem C59_supersonic : forall q fl g c T P x,
  fluid_at fl x g c -> 1 < g -> 0 < c -> 0 < fl_R fl -> perfect g c (fl_R fl) ->
  0 < T -> 0 < P -> 0 < sn_pr q -> 0 < sn_rec q -> flying x ->
  let P' := P * sn_pr q * sn_rec q in
  let T' := T * isentropic_T g (Rpower (sn_pr q * sn_rec q) (sn_eff q)) in
  x_p x < P' -> P' < x_p x * isentropic_P g (1 + (g - 1) / 2 * 10 ^ 2) ->
  let o := supersonic q (ram fl x) x (at_station T P) in
  exists m t u rho area,
    o = Jet (Some T') (Some P') (Some (c * T')) (Some m) (Some t) (Some (c * t)) (Some u) (Some (x_p x))
            (Some rho) (Some area) /\
    0 < m < 10 /\ 0 < t /\
    T' = t * (1 + (g - 1) / 2 * m ^ 2) /\ P' = x_p x * isentropic_P g (T' / t) /\
    u = speed g (fl_R fl) t m /\ rho = density (fl_R fl) t (x_p x) /\
    rho * u * area = flux g (fl_R fl) (x_T x) (x_p x) (x_M x).
Proof.
  intros q fl g c T P x FA G C HR PF HT HP H1 H2 FY P' T' LP HI o.
  destruct (ram_pos x g FY G) as [RT RP]. destruct FY as [Fp FT FM].
  set (r := fl_R fl) in *. set (T0 := ram_T g x) in *. set (P0 := ram_P g x) in *.
  assert (EO : o = supersonic q (flow_of g c r T0 P0) x (at_station T P)) by (unfold o; rewrite (ram_some _ _ _ _ FA G); reflexivity).
  assert (PP : 0 < sn_pr q * sn_rec q) by (apply Rmult_lt_0_compat; auto).
  assert (T'0 : 0 < T') by (apply Rmult_lt_0_compat; auto; apply Rpower_pos).
  assert (P'0 : 0 < P') by lra.
  set (k := P' / x_p x). assert (K : 1 < k).
  { unfold k. apply Rmult_lt_reg_r with (x_p x); auto. replace (P' / x_p x * x_p x) with P' by (field; lra). lra. }
  set (m := mach_of g k).
  assert (M0 : 0 < m) by (apply (mach_pos g k G); lra).
  pose proof (mach_P g k G ltac:(lra)) as MP. fold m in MP.
  assert (M10 : m < 10).
  { destruct (Rlt_le_dec m 10) as [L | L]; auto. exfalso.
    assert (Rpower (1 + (g - 1) / 2 * 10 ^ 2) (g / (g - 1)) <= k).
    { rewrite <- MP. apply Rpower_le_base; [nra | | left; apply Rdiv_lt_0_compat; lra].
      assert (10 ^ 2 <= m * m) by nra. rewrite (Rmult_assoc _ m m). apply Rplus_le_compat_l, Rmult_le_compat_l; lra. }
    unfold isentropic_P in HI. assert (P' = x_p x * k) by (unfold k; field; lra). nra. }
  pose proof (kM_pos g m G) as KM. set (B := 1 + (g - 1) / 2 * m * m) in *.
  set (t := T' / B). assert (t0 : 0 < t) by (apply Rdiv_lt_0_compat; lra).
  assert (TB : T' = t * B) by (unfold t; field; lra).
  assert (ES : supersonic q (flow_of g c r T0 P0) x (at_station T P)
    = Jet (Some T') (Some P') (Some (c * T')) (Some m) (Some t) (Some (c * t)) (Some (sqrt (2 * (c * T' - c * t)))) (Some (x_p x))
        (Some (x_p x / (r * t))) (Some (fmR g (x_M x) / fmR g m * (1 / (P' / P0)) * sqrt (T' / T0)))).
  { unfold supersonic, flow_of, at_station. cbn [s_gamma s_cp s_R s_Tt s_Pt tt pt].
    rewrite !nmul_ss. fold P'. rewrite (ndiv_some P' (x_p x)) by lra. fold k.
    rewrite (nmach_some g k G ltac:(lra)). fold m.
    rewrite !nsub_ss. rewrite (ndiv_some (g - 1) g) by lra. rewrite !nmul_ss. rewrite npow_some by auto. rewrite !nmul_ss.
    assert (ET : T * Rpower (sn_pr q * sn_rec q) ((g - 1) / g * sn_eff q) = T').
    { unfold T', isentropic_T. rewrite Rpower_mult. do 2 f_equal. ring. }
    rewrite ET. cbn [nltb]. replace (Rltb m 10) with true by (symmetry; apply Rltb_true; auto).
    rewrite (ndiv_some (g - 1) 2) by lra. rewrite !nmul_ss, !nadd_ss. fold B. rewrite (ndiv_some T' B) by lra. fold t.
    rewrite !nmul_ss, !nsub_ss, !nmul_ss.
    assert (t <= T') by (rewrite TB; nra).
    rewrite nsqrt_some by nra. assert (0 < r * t) by (apply Rmult_lt_0_compat; auto). rewrite (ndiv_some (x_p x)) by lra.
    rewrite !fm_some by auto. fold (fmR g (x_M x)). fold (fmR g m).
    pose proof (fmR_pos g m M0). rewrite (ndiv_some _ (fmR g m)) by lra. rewrite (ndiv_some P' P0) by lra.
    assert (0 < P' / P0) by (apply Rdiv_lt_0_compat; lra).
    rewrite (ndiv_some 1) by lra. rewrite (ndiv_some T' T0) by lra.
    rewrite nsqrt_some by (left; apply Rdiv_lt_0_compat; auto). reflexivity. }
  assert (US : sqrt (2 * (c * T' - c * t)) = speed g r t m).
  { unfold speed, sound.
    assert (E : 2 * (c * T' - c * t) = m * m * (g * r * t)).
    { unfold perfect in PF. rewrite <- PF, TB. unfold B. field. }
    rewrite E, sqrt_mult; [| nra | left; apply Rmult_lt_0_compat; [apply Rmult_lt_0_compat|]; lra].
    rewrite sqrt_square by lra. reflexivity. }
  rewrite EO, ES, US. do 5 eexists. split; [reflexivity |]. split; [lra |]. split; [auto |].
  assert (BB : T' / t = B) by (rewrite TB; field; lra).
  split; [rewrite TB; unfold B; ring |].
  split; [unfold isentropic_P; rewrite BB, MP; unfold k; field; lra |].
  split; [reflexivity |]. split; [reflexivity |].
  change (B) with (Bof g m) in *.
  pose proof (Rpower_pos (Bof g m) (g / (g - 1))) as RB.
  assert (Ep : x_p x = P' / Rpower (Bof g m) (g / (g - 1))).
  { rewrite MP. unfold k. field. lra. }
  assert (FX : x_p x / (r * t) * speed g r t m = flux g r (T' / Bof g m) (P' / Rpower (Bof g m) (g / (g - 1))) m).
  { unfold flux, density. rewrite <- Ep. reflexivity. }
  rewrite FX, flux_fm by (auto; lra).
  assert (FX0 : flux g r (x_T x) (x_p x) (x_M x) = flux g r (T0 / Bof g (x_M x)) (P0 / Rpower (Bof g (x_M x)) (g / (g - 1))) (x_M x)).
  { assert (1 <= Bof g (x_M x)) by (apply kM_pos; auto). pose proof (Rpower_pos (Bof g (x_M x)) (g / (g - 1))).
    f_equal; unfold T0, P0, ram_T, ram_P; fold (Bof g (x_M x)); field; lra. }
  rewrite FX0, flux_fm by (auto; lra).
  pose proof (fmR_pos g m ltac:(lra)). pose proof (fmR_pos g (x_M x) FM).
  rewrite (sqrt_div T' T0) by lra.
  pose proof (sqrt_lt_R0 _ T'0). pose proof (sqrt_lt_R0 _ RT).
  pose proof (Rpower_pos ((g + 1) / 2) ((g + 1) / (2 * (g - 1)))).
  set (KK := Rpower ((g + 1) / 2) ((g + 1) / (2 * (g - 1)))) in *.
  field. repeat split; lra.
Qed.

(** ** Further cases *)
Example C57_compressor_case : compressor (CompP 4 1) (flow_of 2 1000 500 375 225000) (at_station 375 225000)
  = CompO (Some 750) (Some 900000) (Some 750000) (Some 375000).
Proof.
  rewrite compressor_some by (cbn; lra). cbv zeta. cbn [co_pr co_eff]. rewrite (half_power' 4 2) by lra.
  f_equal; f_equal; lra.
Qed.
Example C57_combustor_case : cb_f (combustor (CombP 1500 1 1 12750000) (Some 1) (flow_of 2 1000 500 375 225000) (at_station 375 225000))
  = Some (1 / 10) /\ 1000 * 1500 < 1 * 12750000.
Proof. rewrite combustor_some by (cbn; lra). cbn. split; [f_equal |]; lra. Qed.
Example C57_turbine_case : 0 + 150000 + 0 * 0 < (1 + 1 / 10) * tu_mech (TurbP 1 1) * (1000 * 1500).
Proof. cbn. lra. Qed.
Example C58_exhausted_case : exists q T5, tu_Tt (turbine q (flow_of 2 1000 500 375 225000) (at_station 1500 225000) (Some 0) (Some (1 / 10)) (Some 3300000) (Some 0) None)
   = Some T5 /\ T5 < 0.
Proof.
  exists (TurbP 1 1), (-1500). split; [| lra]. unfold turbine, flow_of, at_station. cbn [s_gamma s_cp tt pt tu_Tt tu_mech shaft].
  nsimp. f_equal. lra.
Qed.
Example C59_choked_case : exists o, expansion (NozzP 1 1) (flow_of 2 1000 500 375 225000) sonic (at_station 1500 400000) = o /\
  j_M o = Some 1 /\ perfect 2 1000 500 /\ choking 2 <= 400000 / x_p sonic.
Proof.
  assert (CH : choking 2 = 2.25).
  { unfold choking. replace (2 / (2 - 1)) with (INR 2) by (cbn; field). rewrite Rpower_pow by lra. cbn. lra. }
  destruct (C59_nozzle (NozzP 1 1) 2 1000 500 1500 400000 375 225000 sonic) as (T' & P' & m & t & pe & u & rho & area & E & EP & _ & _ & _ & C & _);
    try (cbn; lra); [apply gas_perfect |].
  eexists. split; [exact E |]. cbn [j_M].
  assert (P' = 400000) as -> by (rewrite EP; cbn; rewrite Rmult_1_r; apply Rmax_right; lra).
  assert (L : choking 2 <= 400000 / x_p sonic) by (rewrite CH; cbn; lra).
  rewrite (proj2 C L). repeat split; auto. apply gas_perfect.
Qed.
Example C59_supersonic_case : flying sonic /\ x_p sonic < 225000 /\ 225000 < x_p sonic * isentropic_P 2 (1 + (2 - 1) / 2 * 10 ^ 2).
Proof.
  split; [constructor; cbn; lra |]. split; [cbn; lra |].
  unfold isentropic_P. replace (2 / (2 - 1)) with (INR 2) by (cbn; field). rewrite Rpower_pow by lra. cbn. lra.
Qed.
Lemma plain_flow : forall h, core_flow (plain None (Some h)) sonic = Some h.
Proof.
  intro h. unfold core_flow. cbv zeta. pose proof (cycle_chain false (plain None (Some h)) sonic) as CC. revert CC.
  generalize (cycle_of false (plain None (Some h)) sonic) as cy. intros cy CC.
  rewrite (plain_mdot false None (Some h) 0 cy _ CC); try reflexivity; try lra. rewrite (h_taken _ _ _ _ CC). reflexivity.
Qed.
Example C60_momentum_case : exists F, n_thrust (evaluate (plain None (Some 7)) sonic) = Some F /\ F <> 0 /\
  core_flow (plain None (Some 7)) sonic = Some 7 /\
  x_a sonic = sound 2 500 (x_T sonic) /\ density 500 (x_T sonic) (x_p sonic) * x_u sonic * (7 / 400) = 7.
Proof.
  destruct C61_case as (F & _ & E & N & _). exists F. split; [exact E |]. split; [exact N |]. split; [apply plain_flow |].
  split; [| unfold density; cbn; lra]. unfold sound. cbn. replace (2 * 500 * 250) with (500 * 500) by ring. rewrite sqrt_square; lra.
Qed.
(** a shaft power off-take that leaves just the flight speed for the exhaust *)
Definition leech : take_p := TakeP 412500 375 225000.
Example C60_idle_case : exists F, n_thrust (evaluate (plain (Some leech) (Some 1)) sonic) = Some F /\ F = 0 /\
  cb_f (c_comb (cycle_of false (plain (Some leech) (Some 1)) sonic)) = Some (1 / 10) /\
  core_flow (plain (Some leech) (Some 1)) sonic = Some 1.
Proof.
  rewrite evaluate_eq. unfold core_flow. cbn [n_thrust]. cbv zeta.
  pose proof (cycle_chain false (plain (Some leech) (Some 1)) sonic) as CC. revert CC.
  generalize (cycle_of false (plain (Some leech) (Some 1)) sonic) as cy. intros cy CC.
  assert (SH : shaft (c_taken cy) = Some 412500).
  { rewrite (h_taken _ _ _ _ CC). cbn [e_take plain shaft th_mdhc e_thrust].
    destruct (plain_comp _ _ _ _ CC) as [A B].
    unfold off_take, comp_out. cbn [tt pt]. rewrite A, B. cbn [sp_draw sp_Tref sp_Pref leech].
    destruct (Req_EM_T 412500 0); [lra |]. nsimp. replace (375 / 375) with 1 by field. rewrite nsqrt_some, sqrt_1 by lra. nsimp.
    destruct (Req_EM_T (1 * 1 * (225000 / 225000)) 0); [lra |]. try rewrite ndiv_some by lra. f_equal. field. }
  assert (R5 : 1000 < 1500 - 412500 / 1100 <= 1500) by lra.
  eexists. split; [apply (plain_thrust false (Some leech) (Some 1) 412500 cy _ 1 CC SH R5); reflexivity |].
  split. { replace (2000 * (1500 - 412500 / 1100 - 1000)) with (500 * 500) by field. rewrite sqrt_square by lra. field. }
  split; [| rewrite (plain_mdot false (Some leech) (Some 1) 412500 cy _ CC SH R5); reflexivity].
  apply (plain_burner _ _ _ _ CC).
Qed.
Example C62_case : exists F W, nth_error (fst (engine_out (e_engines fanjet) (map (evaluate fanjet)) [at_throttle (1 / 2) sonic])) 0
  = Some (NetO (Some F) (Some W)).
Proof.
  destruct C58_runs_case as (F & W & E & _).
  do 2 eexists. apply (C62_results fanjet [at_throttle (1 / 2) sonic] 0 (at_throttle (1 / 2) sonic) F W); [reflexivity | cbn; lra | exact E].
Qed.
Example C63_case : exists v, fm_id (Some (1 / 2)) (Some (7 / 5)) = Some v /\ v < 1.
Proof.
  destruct (C63_function (7 / 5) (1 / 2)) as (A & B & _); [lra |].
  destruct (B 1) as (a & b & E1 & E2 & L); try lra. rewrite A in E2. injection E2 as <-. exists a. auto.
Qed.
Print Assumptions C57_ram.
Print Assumptions C57_compressor.
Print Assumptions C57_stages.
Print Assumptions C57_combustor.
Print Assumptions C57_turbine.
Print Assumptions C57_inlet.
Print Assumptions C57_inlet_shock.
Print Assumptions C58_first_law.
Print Assumptions C58_exhausted.
Print Assumptions C58_runs.
Print Assumptions C59_nozzle.
Print Assumptions C59_mass.
Print Assumptions C63_function.
Print Assumptions C63_fraction.
Print Assumptions C60_momentum.
Print Assumptions C60_throttle.
Print Assumptions C60_fuel.
Print Assumptions C60_no_number.
Print Assumptions C60_idle_refuted.
Print Assumptions C61_design.
Print Assumptions C61_again.
Print Assumptions C61_independent.
Print Assumptions C62_restored.
Print Assumptions C62_results.
Print Assumptions C61_off_take_refuted.
Print Assumptions C59_supersonic.
