(** * C149-C155: rockets, ramjets, scramjets and emissions *)
From Coq Require Import Reals Lra Psatz List.
From Verif Require Import PyBase M_Opt M_Engine S_Engine P_Opt P_Engine P_Deriv M_Rocket S_Rocket P_Rocket P_Rocket2 P_Rocket3.
Import ListNotations.
Local Open Scope R_scope.

(** ** C149: the Mach number for an area ratio *)
(** the equation of fm_solver: with [b] the needed area as a multiple of the choking area there
    are exactly two solutions, one on either side of Mach 1, or Mach 1 alone, or none *)
Theorem C149_solutions a M0 g : 1 < g -> 0 < M0 ->
  let b := a * area_star g M0 in
  (1 < b -> exists lo hi, 0 < lo < 1 /\ 1 < hi /\ forall M, 0 < M -> (fm_residual a M0 g M = 0 <-> M = lo \/ M = hi)) /\
  (b = 1 -> forall M, 0 < M -> (fm_residual a M0 g M = 0 <-> M = 1)) /\
  (b < 1 -> forall M, 0 < M -> fm_residual a M0 g M <> 0).
Proof.
  intros G H b. split; [|split].
  - intro B. destruct (two_roots g b G B) as (lo & hi & L & K & E). exists lo, hi. split; [exact L|]. split; [exact K|].
    intros M P. rewrite residual_root by assumption. apply E. exact P.
  - intros B M P. rewrite residual_root by assumption. fold b. rewrite B. split.
    + intro E. destruct (Req_dec M 1); [assumption|]. pose proof (area_gt1 g M G P H0). lra.
    + intros ->. apply area_one. assumption.
  - intros B M P E. rewrite residual_root in E by assumption. fold b in E. pose proof (area_ge1 g M G P). lra.
Qed.
(** a solution passes the same mass flow through the changed area at the same stagnation state *)
Theorem C149_mass a M0 g r Tt Pt M A : 1 < g -> 0 < M0 -> 0 < r -> 0 < Tt -> 0 < Pt -> 0 < M ->
  fm_residual a M0 g M = 0 ->
  let T N := Tt / (1 + (g - 1) / 2 * N ^ 2) in let P N := Pt / Rpower (1 + (g - 1) / 2 * N ^ 2) (g / (g - 1)) in
  flux g r (T M) (P M) M * (A * a) = flux g r (T M0) (P M0) M0 * A.
Proof.
  intros G H0 R0 T0 P0 H E T P. apply residual_root in E; [|assumption..]. unfold T, P. rewrite <- !BofE.
  rewrite !flux_fm by (assumption || lra). rewrite !area_fm in E by assumption.
  pose proof (fmR_pos g M H). pose proof (fmR_pos g M0 H0).
  assert (a = fmR g M0 / fmR g M). { apply Rmult_eq_reg_r with (/ fmR g M0); [|apply Rinv_neq_0_compat; lra]. rewrite <- E. field. split; lra. }
  rewrite H3. pose proof (Rpower_pos ((g + 1) / 2) ((g + 1) / (2 * (g - 1)))). pose proof (sqrt_lt_R0 Tt T0). field. repeat split; lra.
Qed.
(** a larger area: faster above Mach 1, slower below *)
Theorem C149_order a a' M0 g M M' : 1 < g -> 0 < M0 -> a < a' -> 0 < M -> 0 < M' ->
  fm_residual a M0 g M = 0 -> fm_residual a' M0 g M' = 0 ->
  (1 <= M -> 1 <= M' -> M < M') /\ (M <= 1 -> M' <= 1 -> M' < M).
Proof.
  intros G H L P P' E E'. apply residual_root in E; [|assumption..]. apply residual_root in E'; [|assumption..].
  pose proof (area_pos g M0 G H). assert (Q : area_star g M < area_star g M') by (rewrite E, E'; apply Rmult_lt_compat_r; assumption).
  split; intros U V.
  - destruct (Rtotal_order M M') as [X|[X|X]]; [exact X|subst; lra|]. pose proof (area_sup g M' M G V X). lra.
  - destruct (Rtotal_order M M') as [X|[X|X]]; [|subst; lra|exact X]. pose proof (area_sub g M M' G P X V). lra.
Qed.
(** mach_area solves the same problem from a choked throat *)
Theorem C149_same a g M : 1 < g -> 0 < a -> 0 < M -> (mach_area_residual a g M = 0 <-> fm_residual a 1 g M = 0).
Proof.
  intros G A H. rewrite residual_root by lra. rewrite mach_area_eq by lra. rewrite Rabs_right by lra. rewrite area_one by assumption.
  pose proof (area_pos g M G H). split; intro E.
  - assert ((area_star g M - a) * (area_star g M + a) = 0) by (ring_simplify; lra). apply Rmult_integral in H1. lra.
  - rewrite E. ring.
Qed.
(** but its equation does not exclude the negatives of the two Mach numbers *)
Theorem C149_negative_refuted a g M : 1 < g -> 0 < M -> mach_area_residual a g M = 0 -> mach_area_residual a g (- M) = 0.
Proof. intros G H E. rewrite mach_area_eq in * by lra. rewrite Rabs_Ropp. exact E. Qed.
Example C149_case : exists M, 1 < M /\ fm_residual 2 1 (7 / 5) M = 0.
Proof.
  destruct (C149_solutions 2 1 (7 / 5)) as [H _]; try lra. rewrite area_one in H by lra. destruct H as (lo & hi & _ & K & E); [lra|]. exists hi. split; [exact K|]. apply E; [lra|right; reflexivity].
Qed.

(** ** C150: rocket thrust *)
Definition running (r : rocket) (pi : R) : Prop :=
  sane (rk_chamber r) /\ la_pressure_ratio (rk_nozzle r) = Some pi /\ 0 < pi /\ 0 < la_throat (rk_nozzle r) /\ 0 < rk_engines r.
Definition exhaust_of (r : rocket) (pi Me : R) : gas := exit (rk_chamber r) pi (la_eff (rk_nozzle r)) Me.
Definition exit_area (r : rocket) : R := la_throat (rk_nozzle r) * la_expansion (rk_nozzle r).
Lemma evaluated r a Me pi : la_pressure_ratio (rk_nozzle r) = Some pi ->
  evaluate_rocket r a Me = Ok (rocket_thrust a (ch_gamma (rk_chamber r)) (la_throat (rk_nozzle r)) (la_expansion (rk_nozzle r)) (rk_engines r) (exhaust_of r pi Me)).
Proof. intro E. unfold evaluate_rocket, nozzle. rewrite E. reflexivity. Qed.
Lemma thrust_formula r a Me pi : running r pi -> 0 < Me ->
  ro_thrust (rocket_thrust a (ch_gamma (rk_chamber r)) (la_throat (rk_nozzle r)) (la_expansion (rk_nozzle r)) (rk_engines r) (exhaust_of r pi Me))
  = clip0 (rk_engines r * (am_throttle a * momentum_thrust (exhaust_of r pi Me) (exit_area r) (am_p a))).
Proof.
  intros (S & E & Hpi & At & N) HM. unfold rocket_thrust. cbn [ro_thrust]. f_equal. rewrite Rmult_assoc. f_equal.
  apply thrust_momentum; assumption.
Qed.
(** the thrust is the momentum of the exhaust plus the pressure force on the exits of all
    engines, times the throttle, and never negative *)
Theorem C150_thrust r a Me pi : running r pi -> 0 < Me -> exists o, evaluate_rocket r a Me = Ok o /\
  ro_thrust o = Rmax 0 (rk_engines r * am_throttle a * momentum_thrust (exhaust_of r pi Me) (exit_area r) (am_p a)).
Proof.
  intros Q HM. eexists. split; [apply evaluated; apply Q|]. rewrite thrust_formula by assumption. rewrite clip0_max. f_equal. ring.
Qed.
Lemma ok_inj (x y : rocket_out) : Ok x = Ok y -> x = y.
Proof. intro E. inversion E. reflexivity. Qed.
Lemma max_pos x : 0 < Rmax 0 x -> 0 < x.
Proof. intro P. destruct (Rle_lt_dec x 0); [rewrite Rmax_left in P by assumption; lra|assumption]. Qed.
(** throttling *)
Theorem C150_throttle r p g t k Me pi o o' : running r pi -> 0 < Me -> 0 <= k -> 
  evaluate_rocket r (Ambient p g t) Me = Ok o -> evaluate_rocket r (Ambient p g (k * t)) Me = Ok o' ->
  ro_thrust o' = k * ro_thrust o /\ ro_mdot o' = k * ro_mdot o /\ ro_isp o' = ro_isp o.
Proof.
  intros Q HM K E E'. rewrite (evaluated r _ Me pi) in E by apply Q. rewrite (evaluated r _ Me pi) in E' by apply Q. apply ok_inj in E. apply ok_inj in E'. subst o o'.
  split; [|split].
  - rewrite !thrust_formula by assumption. cbn [am_throttle am_p]. rewrite <- clip0_scale by assumption. f_equal. ring.
  - unfold rocket_thrust. cbn [ro_mdot am_throttle]. rewrite <- clip0_scale by assumption. f_equal. ring.
  - reflexivity.
Qed.
(** less thrust against a higher outside pressure *)
Theorem C150_ambient r p p' g t Me pi o o' : running r pi -> 0 < Me -> 0 < la_expansion (rk_nozzle r) -> 0 < t -> p < p' ->
  evaluate_rocket r (Ambient p g t) Me = Ok o -> evaluate_rocket r (Ambient p' g t) Me = Ok o' ->
  0 < ro_thrust o -> ro_thrust o' < ro_thrust o /\ ro_mdot o' = ro_mdot o.
Proof.
  intros Q HM X T L E E' P. rewrite (evaluated r _ Me pi) in E by apply Q. rewrite (evaluated r _ Me pi) in E' by apply Q. apply ok_inj in E. apply ok_inj in E'. subst o o'.
  split; [|reflexivity]. revert P. rewrite !thrust_formula by assumption. cbn [am_throttle am_p]. destruct Q as (S & _ & Hpi & At & N).
  assert (A : 0 < exit_area r) by (apply Rmult_lt_0_compat; assumption).
  set (e := exhaust_of r pi Me). rewrite !clip0_max. intro P.
  assert (F : 0 < rk_engines r * (t * momentum_thrust e (exit_area r) p)) by (apply max_pos in P; lra).
  rewrite (Rmax_right 0 (rk_engines r * (t * momentum_thrust e (exit_area r) p))) by lra.
  assert (momentum_thrust e (exit_area r) p' < momentum_thrust e (exit_area r) p) by (unfold momentum_thrust; nra).
  apply Rmax_lub_lt; [exact F|]. apply Rmult_lt_compat_l; [assumption|]. apply Rmult_lt_compat_l; assumption.
Qed.
(** of all expansion ratios of a nozzle that runs full and supersonic, the one whose exit
    pressure is the outside pressure gives the largest thrust *)
Definition with_expansion (r : rocket) (er : R) : rocket :=
  let n := rk_nozzle r in
  Rocket (rk_chamber r) (Laval (la_converge n) (la_diverge n) (la_pressure_ratio n) (la_eff n) er (la_throat n))
         (rk_engines r) (rk_design r) (rk_isp_design r) (rk_mass_flow r).
Theorem C150_best r a pi e1 e2 M1 M2 o1 o2 : running r pi -> 0 < am_throttle a ->
  1 <= M1 -> 1 <= M2 -> e1 <> e2 ->
  fm_residual e1 1 (ch_gamma (rk_chamber r)) M1 = 0 -> fm_residual e2 1 (ch_gamma (rk_chamber r)) M2 = 0 ->
  ga_P (exhaust_of r pi M2) = am_p a ->
  evaluate_rocket (with_expansion r e1) a M1 = Ok o1 -> evaluate_rocket (with_expansion r e2) a M2 = Ok o2 ->
  ro_thrust o1 < ro_thrust o2.
Proof.
  intros Q T H1 H2 N E1 E2 P V1 V2. assert (Q1 : running (with_expansion r e1) pi) by exact Q. assert (Q2 : running (with_expansion r e2) pi) by exact Q.
  rewrite (evaluated _ _ _ pi) in V1 by apply Q. rewrite (evaluated _ _ _ pi) in V2 by apply Q. apply ok_inj in V1. apply ok_inj in V2. subst o1 o2.
  
  rewrite (thrust_formula (with_expansion r e1)), (thrust_formula (with_expansion r e2)) by (assumption || lra). destruct Q as (S & _ & Hpi & At & Ne). assert (G : 1 < ch_gamma (rk_chamber r)) by apply S.
  apply residual_root in E1; [|assumption||lra..]. apply residual_root in E2; [|assumption||lra..]. rewrite area_one, Rmult_1_r in E1, E2 by assumption.
  assert (A1 : exit_area (with_expansion r e1) = la_throat (rk_nozzle r) * area_star (ch_gamma (rk_chamber r)) M1) by (rewrite E1; reflexivity).
  assert (A2 : exit_area (with_expansion r e2) = la_throat (rk_nozzle r) * area_star (ch_gamma (rk_chamber r)) M2) by (rewrite E2; reflexivity).
  rewrite A1, A2. unfold exhaust_of, with_expansion in *. cbn [rk_chamber rk_nozzle la_eff rk_engines la_throat] in *.
  set (g := ch_gamma (rk_chamber r)) in *. set (c := rk_chamber r) in *. set (eta := la_eff (rk_nozzle r)) in *.
  rewrite !(momentum_bigF c pi eta) by (assumption || lra). rewrite exit_P in P.
  assert (Pt0 : 0 < ch_P c * pi * pi) by (destruct S; repeat apply Rmult_lt_0_compat; assumption).
  assert (M1 <> M2) by (intros ->; congruence).
  assert (L : bigF (ch_gamma c) (ch_P c * pi * pi) (la_throat (rk_nozzle r)) (am_p a) M1 < bigF (ch_gamma c) (ch_P c * pi * pi) (la_throat (rk_nozzle r)) (am_p a) M2).
  { destruct (Rtotal_order M1 M2) as [L|[L|L]]; [|congruence|].
    - apply bigF_up; try assumption. lra.
    - apply bigF_down; try assumption. lra. }
  assert (F : 0 < bigF (ch_gamma c) (ch_P c * pi * pi) (la_throat (rk_nozzle r)) (am_p a) M2).
  { rewrite <- (momentum_bigF c pi eta) by (assumption || lra). unfold momentum_thrust, mass_flow. rewrite exit_P, P.
    destruct (exit_pos c pi eta M2 S Hpi ltac:(lra)) as (_ & _ & D & U & _). pose proof (area_pos g M2 G ltac:(lra)) as AA. fold g.
    assert (0 < ga_rho (exit c pi eta M2) * ga_U (exit c pi eta M2) * (la_throat (rk_nozzle r) * area_star g M2) * ga_U (exit c pi eta M2)).
    { apply Rmult_lt_0_compat; [|assumption]. apply Rmult_lt_0_compat; [apply Rmult_lt_0_compat; assumption|apply Rmult_lt_0_compat; assumption]. }
    lra. }
  rewrite !clip0_max. assert (W : 0 < rk_engines r * (am_throttle a * bigF (ch_gamma c) (ch_P c * pi * pi) (la_throat (rk_nozzle r)) (am_p a) M2)).
  { apply Rmult_lt_0_compat; [assumption|]. apply Rmult_lt_0_compat; assumption. }
  rewrite (Rmax_right 0 (rk_engines r * (am_throttle a * bigF (ch_gamma c) (ch_P c * pi * pi) (la_throat (rk_nozzle r)) (am_p a) M2))) by lra.
  apply Rmax_lub_lt; [exact W|]. apply Rmult_lt_compat_l; [assumption|]. apply Rmult_lt_compat_l; assumption.
Qed.
(** the specific impulse stays below the speed of the hot gas expanded into vacuum *)
Theorem C150_limit r a Me pi o : running r pi -> pi <= 1 -> 0 <= la_eff (rk_nozzle r) -> 1 <= Me -> 0 <= am_p a -> 0 < am_g a ->
  evaluate_rocket r a Me = Ok o ->
  ro_isp o * am_g a < vacuum_speed (ch_gamma (rk_chamber r)) (ch_R (rk_chamber r)) (ch_T (rk_chamber r)).
Proof.
  intros Q P1 He HM Hp Hg E. rewrite (evaluated r _ Me pi) in E by apply Q. apply ok_inj in E. subst o. destruct Q as (S & _ & Hpi & _).
  unfold rocket_thrust. cbn [ro_isp]. unfold Rdiv at 1. rewrite Rmult_assoc, Rinv_l, Rmult_1_r by lra.
  apply (exhaust_limit (rk_chamber r) pi (la_eff (rk_nozzle r)) Me (am_p a)); assumption || lra.
Qed.
(** one engine: thrust is mass rate times specific impulse times gravity, ... *)
Theorem C150_impulse r a Me pi o : running r pi -> rk_engines r = 1 -> 0 < Me -> am_g a <> 0 -> 0 <= am_throttle a -> 0 < la_expansion (rk_nozzle r) ->
  evaluate_rocket r a Me = Ok o -> 0 < ro_thrust o -> ro_thrust o = ro_mdot o * ro_isp o * am_g a.
Proof.
  intros Q N1 HM Hg T X E P. rewrite (evaluated r _ Me pi) in E by apply Q. apply ok_inj in E. subst o. destruct Q as (S & _ & Hpi & At & _).
  destruct (exit_pos (rk_chamber r) pi (la_eff (rk_nozzle r)) Me S Hpi HM) as (_ & _ & D & U & _). fold (exhaust_of r pi Me) in D, U.
  revert P. unfold rocket_thrust. cbn [ro_thrust ro_mdot ro_isp]. set (m := am_throttle a * _ * _ * _).
  assert (0 <= m). { unfold m. apply Rmult_le_pos; [apply Rmult_le_pos; [apply Rmult_le_pos; lra|lra]|apply Rmult_le_pos; lra]. }
  rewrite (clip0_nonneg m) by assumption. set (C := ga_U _ * (1 + _)). rewrite N1. rewrite clip0_max. intro P. rewrite Rmax_right by (apply max_pos in P; lra).
  field. assumption.
Qed.
(** ... but with several engines the reported mass rate is still that of one engine, so that the
    vehicle loses too little mass *)
Theorem C150_engines_refuted r a Me pi o : running r pi -> rk_engines r <> 1 -> 0 < Me -> am_g a <> 0 -> 0 < am_throttle a -> 0 < la_expansion (rk_nozzle r) ->
  evaluate_rocket r a Me = Ok o -> 0 < ro_thrust o ->
  ro_thrust o = rk_engines r * (ro_mdot o * ro_isp o * am_g a) /\ ro_thrust o <> ro_mdot o * ro_isp o * am_g a /\
  ro_mdot o = am_throttle a * mass_flow (exhaust_of r pi Me) (exit_area r).
Proof.
  intros Q N1 HM Hg T X E P. rewrite (evaluated r _ Me pi) in E by apply Q. apply ok_inj in E. subst o. destruct Q as (S & _ & Hpi & At & _).
  destruct (exit_pos (rk_chamber r) pi (la_eff (rk_nozzle r)) Me S Hpi HM) as (_ & _ & D & U & _). fold (exhaust_of r pi Me) in D, U.
  revert P. unfold rocket_thrust. cbn [ro_thrust ro_mdot ro_isp]. set (m := am_throttle a * _ * _ * _).
  assert (ME : m = am_throttle a * mass_flow (exhaust_of r pi Me) (exit_area r)) by (unfold m, mass_flow, exit_area; ring).
  assert (0 < m). { unfold m. apply Rmult_lt_0_compat; [|apply Rmult_lt_0_compat; assumption]. apply Rmult_lt_0_compat; [|assumption]. apply Rmult_lt_0_compat; assumption. }
  rewrite (clip0_nonneg m) by lra. set (C := ga_U _ * (1 + _)). rewrite clip0_max. intro P.
  assert (0 < rk_engines r * m * C) by (apply max_pos in P; lra). rewrite Rmax_right by lra.
  assert (E : m * (C / am_g a) * am_g a = m * C) by (field; assumption). rewrite E. split; [ring|]. split; [|exact ME].
  intro Z. assert ((rk_engines r - 1) * (m * C) = 0) by lra. apply Rmult_integral in H1. destruct H1 as [H1|H1]; [lra|]. rewrite Rmult_assoc, H1 in H0. lra.
Qed.
(** sizing for a thrust stores a mass flow that nothing reads: the evaluated thrust is the same
    for every design thrust *)
Theorem C150_design_refuted atmo sls r h Me r' t d : liquid_rocket_sizing atmo sls r None (Some h) Me = Ok (r', t) ->
  (forall a, evaluate_rocket r' a Me = evaluate_rocket r a Me) /\
  exists r'', liquid_rocket_sizing atmo sls (Rocket (rk_chamber r) (rk_nozzle r) (rk_engines r) d (rk_isp_design r) (rk_mass_flow r)) None (Some h) Me = Ok (r'', t) /\
  forall a, evaluate_rocket r'' a Me = evaluate_rocket r a Me.
Proof.
  unfold liquid_rocket_sizing. cbn [rk_chamber rk_nozzle rk_engines]. destruct (nozzle (rk_chamber r) (rk_nozzle r) Me) eqn:E; [|discriminate].
  destruct (evaluate_rocket (size_thrust r (atmo h)) sls Me) eqn:V; [|discriminate]. intro H. inversion H. subst. clear H.
  split; [intro; reflexivity|]. eexists. change (evaluate_rocket (size_thrust (Rocket _ _ _ d _ _) (atmo h)) sls Me) with (evaluate_rocket (size_thrust r (atmo h)) sls Me). rewrite V. split; [reflexivity|]. intro; reflexivity.
Qed.
(** sizing reports the thrust of one engine at sea level and standstill, and stores the mass flow of the design thrust *)
Theorem C150_sized atmo sls r h Me r' t : rk_engines r <> 0 -> liquid_rocket_sizing atmo sls r None (Some h) Me = Ok (r', t) ->
  (exists o, evaluate_rocket r sls Me = Ok o /\ ro_thrust o = rk_engines r * t) /\
  (rk_isp_design r * am_g (atmo h) <> 0 -> exists m, rk_mass_flow r' = Some m /\ m * (rk_isp_design r * am_g (atmo h)) = rk_engines r * rk_design r).
Proof.
  intros N E. unfold liquid_rocket_sizing in E. destruct (nozzle (rk_chamber r) (rk_nozzle r) Me); [|discriminate].
  destruct (evaluate_rocket (size_thrust r (atmo h)) sls Me) as [o|] eqn:Q; [|discriminate]. inversion E. subst r' t. split.
  - exists o. split; [exact Q|]. field. exact N.
  - intro Z. eexists. split; [reflexivity|]. field. split; intro Y; apply Z; rewrite Y; ring.
Qed.
(** sizing with the caller's own conditions never succeeds *)
Theorem C150_conditions_refuted atmo sls r c altitude Me : exists e, liquid_rocket_sizing atmo sls r (Some c) altitude Me = Err e.
Proof. unfold liquid_rocket_sizing. destruct (nozzle _ _ _); eexists; reflexivity. Qed.
Definition demo_rocket : rocket := Rocket (Chamber 100 3000 (6 / 5) 350) (Laval None None (Some 1) 1 2 (1 / 10)) 3 1 1 None.
Example C150_case : running demo_rocket 1 /\ exists M1 M2, 1 <= M1 /\ 1 <= M2 /\ fm_residual 2 1 (6 / 5) M1 = 0 /\ fm_residual 3 1 (6 / 5) M2 = 0 /\
  0 < ga_P (exhaust_of demo_rocket 1 M2).
Proof.
  assert (S : sane (rk_chamber demo_rocket)) by (unfold sane, demo_rocket; cbn; lra).
  split; [unfold running; split; [exact S|cbn; repeat split; lra]|].
  destruct (C149_solutions 2 1 (6 / 5)) as [H _]; try lra. rewrite area_one in H by lra. destruct H as (lo & hi & _ & K & E); [lra|].
  destruct (C149_solutions 3 1 (6 / 5)) as [H' _]; try lra. rewrite area_one in H' by lra. destruct H' as (lo' & hi' & _ & K' & E'); [lra|].
  exists hi, hi'. split; [lra|]. split; [lra|]. split; [apply E; [lra|right; reflexivity]|]. split; [apply E'; [lra|right; reflexivity]|].
  apply exit_pos; [exact S|lra|lra].
Qed.

(** ** C151: the rocket nozzle *)
(** every state the nozzle reports is a state of the gas *)
Theorem C151_state c pi eta Me cp : sane c -> 0 < pi -> 0 < Me -> perfect (ch_gamma c) cp (ch_R c) ->
  let e := exit c pi eta Me in
  ga_rho e = density (ch_R c) (ga_T e) (ga_P e) /\ ga_U e = speed (ch_gamma c) (ch_R c) (ga_T e) (ga_M e) /\
  cp * ga_T e + ga_U e * ga_U e / 2 = cp * ga_Tt e /\
  ga_Pt e = total_P (ch_gamma c) (ga_P e) (ga_M e) /\ ga_M e = Me.
Proof.
  intros S Hpi HM Pf e. split; [reflexivity|]. split; [reflexivity|]. split; [apply exit_energy; assumption|]. split; [|reflexivity].
  unfold total_P. rewrite <- BofE. change (ga_M e) with Me. fold (kexp (ch_gamma c)). unfold e. rewrite exit_P.
  pose proof (Rpower_pos (Bof (ch_gamma c) Me) (kexp (ch_gamma c))). transitivity (ch_P c * pi * pi); [reflexivity|]. field. lra.
Qed.
(** without losses, exit and throat pass the same mass ... *)
Theorem C151_mass c eta Me At er : sane c -> 0 < Me -> fm_residual er 1 (ch_gamma c) Me = 0 ->
  mass_flow (exit c 1 eta Me) (At * er) = mass_flow (throat c 1 eta) At /\ ga_Tt (exit c 1 eta Me) = ch_T c /\ ga_Pt (exit c 1 eta Me) = ch_P c.
Proof.
  intros S HM E. assert (G : 1 < ch_gamma c) by apply S. apply residual_root in E; [|assumption||lra..]. rewrite area_one, Rmult_1_r in E by assumption.
  split; [|split].
  - rewrite (mass_ratio c 1 eta Me At er) by (assumption || lra). rewrite Rpower_base1. ring.
  - unfold exit, throat. cbn [ga_Tt]. rewrite Rpower_base1. ring.
  - unfold exit, throat. cbn [ga_Pt]. ring.
Qed.
(** ... with a pressure ratio below 1 they do not, and the gas loses stagnation temperature
    although no heat leaves it *)
Theorem C151_mass_refuted c pi eta Me At er : sane c -> 0 < pi < 1 -> 0 < eta <= 1 -> 0 < Me -> 0 < At -> fm_residual er 1 (ch_gamma c) Me = 0 ->
  mass_flow (exit c pi eta Me) (At * er) = Rpower pi (1 - (ch_gamma c - 1) / (2 * ch_gamma c) * eta) * mass_flow (throat c pi eta) At /\
  mass_flow (exit c pi eta Me) (At * er) < mass_flow (throat c pi eta) At /\ ga_Tt (exit c pi eta Me) < ch_T c.
Proof.
  intros S Hpi He HM HA E. assert (S' := S). destruct S' as (P0 & T0 & G & R0). apply residual_root in E; [|assumption||lra..]. rewrite area_one, Rmult_1_r in E by assumption.
  pose proof (mass_ratio c pi eta Me At er S ltac:(lra) HM E) as MR. split; [exact MR|].
  assert (pw1 : forall k, 0 < k -> Rpower pi k < 1). { intros k K. apply Rlt_le_trans with (Rpower 1 k); [apply Rpower_lt_base; lra|rewrite Rpower_base1; lra]. }
  assert (kk : 0 < (ch_gamma c - 1) / ch_gamma c * eta) by (apply Rmult_lt_0_compat; [apply Rdiv_lt_0_compat; lra|lra]).
  split.
  - rewrite MR. assert (0 < mass_flow (throat c pi eta) At).
    { rewrite mass_throat by (assumption || lra). assert (0 < ga_Tt (throat c pi eta)) by (apply Rmult_lt_0_compat; [assumption|apply Rpower_pos]).
      assert (0 < ga_Pt (throat c pi eta)) by (apply Rmult_lt_0_compat; lra). pose proof (sqrt_lt_R0 _ H). assert (0 < ch_gamma c / ch_R c) by (apply Rdiv_lt_0_compat; lra). pose proof (sqrt_lt_R0 _ H2).
      apply Rmult_lt_0_compat; [|assumption]. apply Rdiv_lt_0_compat; [|apply Rpower_pos]. apply Rmult_lt_0_compat; [|assumption]. apply Rdiv_lt_0_compat; assumption. }
    assert (Rpower pi (1 - (ch_gamma c - 1) / (2 * ch_gamma c) * eta) < 1).
    { apply pw1. assert ((ch_gamma c - 1) / (2 * ch_gamma c) < 1). { apply Rmult_lt_reg_r with (2 * ch_gamma c); [lra|]. unfold Rdiv. rewrite Rmult_assoc, Rinv_l by lra. lra. }
      assert (0 < (ch_gamma c - 1) / (2 * ch_gamma c)) by (apply Rdiv_lt_0_compat; lra). nra. }
    nra.
  - unfold exit, throat. cbn [ga_Tt]. pose proof (pw1 _ kk). pose proof (Rpower_pos pi ((ch_gamma c - 1) / ch_gamma c * eta)). set (x := Rpower pi ((ch_gamma c - 1) / ch_gamma c * eta)) in *. rewrite Rmult_assoc. assert (X1 : x * x < 1) by nra. pose proof (Rmult_lt_compat_l (ch_T c) _ _ T0 X1) as X2. lra.
Qed.
(** the two pressure ratios among the nozzle's settings are never read, and the one that is read
    is not among them: a nozzle with only the documented settings cannot be evaluated *)
Theorem C151_settings_refuted c n Me x y :
  nozzle c (Laval x y (la_pressure_ratio n) (la_eff n) (la_expansion n) (la_throat n)) Me = nozzle c n Me /\
  nozzle c (Laval x y None (la_eff n) (la_expansion n) (la_throat n)) Me = Err AttributeError.
Proof. split; reflexivity. Qed.
Example C151_case : exists Me, 0 < Me /\ fm_residual 2 1 (6 / 5) Me = 0 /\ sane (Chamber 100 3000 (6 / 5) 350).
Proof.
  destruct (C149_solutions 2 1 (6 / 5)) as [H _]; try lra. rewrite area_one in H by lra. destruct H as (lo & hi & _ & K & E); [lra|].
  exists hi. split; [lra|]. split; [apply E; [lra|right; reflexivity]|]. unfold sane. cbn. lra.
Qed.

(** ** C152: burning in a duct (ramjet) *)
(** the equation and the pressure ratio describe frictionless heating in a constant-area duct:
    two states with the same mass flux and the same impulse *)
Theorem C152_duct g r P0 T0 M0 P1 T1 M1 : 1 < g -> 0 < r -> 0 < P0 -> 0 < T0 -> 0 < M0 -> 0 < P1 -> 0 < T1 -> 0 < M1 ->
  flux g r T0 P0 M0 = flux g r T1 P1 M1 -> impulse g P0 M0 = impulse g P1 M1 ->
  rayleigh_residual g M0 (total_T g T1 M1 / total_T g T0 M0) M1 = 0 /\
  rayleigh_Ptr g M0 M1 = total_P g P1 M1 / total_P g P0 M0.
Proof.
  intros G R0 p0 t0 m0 p1 t1 m1 F I. unfold impulse in I. replace (M0 ^ 2) with (M0 * M0) in I by ring. replace (M1 ^ 2) with (M1 * M1) in I by ring.
  pose proof (den_pos g M0 G) as D0. pose proof (den_pos g M1 G) as D1. pose proof (Bof_pos g M0 G) as B0. pose proof (Bof_pos g M1 G) as B1.
  assert (PE : P1 = P0 * (1 + g * (M0 * M0)) / (1 + g * (M1 * M1))) by (apply Rmult_eq_reg_r with (1 + g * (M1 * M1)); [rewrite <- I; field; lra|lra]).
  assert (SQ : P0 * P0 * (M0 * M0) * T1 = P1 * P1 * (M1 * M1) * T0).
  { unfold flux, density, speed, sound in F. assert (X0 : 0 < g * r * T0) by (repeat apply Rmult_lt_0_compat; lra). assert (X1 : 0 < g * r * T1) by (repeat apply Rmult_lt_0_compat; lra).
    pose proof (sqrt_sqrt _ (Rlt_le _ _ X0)) as S0. pose proof (sqrt_sqrt _ (Rlt_le _ _ X1)) as S1.
    set (s0 := sqrt (g * r * T0)) in *. set (s1 := sqrt (g * r * T1)) in *.
    assert (F2 : (P0 / (r * T0) * (M0 * s0)) * (P0 / (r * T0) * (M0 * s0)) = (P1 / (r * T1) * (M1 * s1)) * (P1 / (r * T1) * (M1 * s1))) by (rewrite F; reflexivity).
    replace ((P0 / (r * T0) * (M0 * s0)) * (P0 / (r * T0) * (M0 * s0))) with (P0 / (r * T0) * (P0 / (r * T0)) * (M0 * M0) * (s0 * s0)) in F2 by ring.
    replace ((P1 / (r * T1) * (M1 * s1)) * (P1 / (r * T1) * (M1 * s1))) with (P1 / (r * T1) * (P1 / (r * T1)) * (M1 * M1) * (s1 * s1)) in F2 by ring.
    rewrite S0, S1 in F2.
    assert (L : P0 / (r * T0) * (P0 / (r * T0)) * (M0 * M0) * (g * r * T0) = (g / (r * T0 * T1)) * (P0 * P0 * (M0 * M0) * T1)) by (field; lra).
    assert (K : P1 / (r * T1) * (P1 / (r * T1)) * (M1 * M1) * (g * r * T1) = (g / (r * T0 * T1)) * (P1 * P1 * (M1 * M1) * T0)) by (field; lra).
    rewrite L, K in F2. apply Rmult_eq_reg_l in F2; [exact F2|]. apply Rgt_not_eq. apply Rdiv_lt_0_compat; [lra|]. repeat apply Rmult_lt_0_compat; lra. }
  split.
  - rewrite rayleigh_rT by assumption. unfold total_T, rT. rewrite <- !BofE.
    replace (1 + (g - 1) / 2 * (M1 * M1)) with (Bof g M1) by (unfold Bof; ring). replace (1 + (g - 1) / 2 * (M0 * M0)) with (Bof g M0) by (unfold Bof; ring).
    assert (T1E : T1 = P1 * P1 * (M1 * M1) * T0 / (P0 * P0 * (M0 * M0))) by (rewrite <- SQ; field; lra).
    rewrite T1E, PE. field. repeat split; lra.
  - unfold rayleigh_Ptr, total_P. fold (Bof g M1) (Bof g M0). rewrite <- !BofE. rewrite Rpower_quot by assumption.
    rewrite (Rmult_assoc g M0), (Rmult_assoc g M1). pose proof (Rpower_pos (Bof g M0) (g / (g - 1))). rewrite PE. field. repeat split; lra.
Qed.
(** heating below the choking temperature reaches the requested temperature, with one Mach
    number on the side of the inflow, nearer to Mach 1, and loses stagnation pressure *)
Theorem C152_heats b g Cp Tt Pt M : 1 < g -> 0 < Tt -> 0 < Pt -> 0 < M -> M <> 1 -> Tt <= bu_Tt4 b -> bu_Tt4 b < choking_Tt g M Tt ->
  exists N, ((M < 1 /\ M <= N < 1) \/ (1 < M /\ 1 < N <= M)) /\
  rayleigh_residual g M (burner_Tt4 b g M Tt / Tt) N = 0 /\
  (forall N', 0 < N' -> (N' < 1 <-> M < 1) -> rayleigh_residual g M (burner_Tt4 b g M Tt / Tt) N' = 0 -> N' = N) /\
  bd_Tt (burn b g Cp Tt Pt M N) = bu_Tt4 b /\ bd_Pt (burn b g Cp Tt Pt M N) <= Pt /\
  (Tt < bu_Tt4 b -> bd_Pt (burn b g Cp Tt Pt M N) < Pt).
Proof.
  intros G T P H N1 L C. assert (E4 : burner_Tt4 b g M Tt = bu_Tt4 b) by (unfold burner_Tt4; destruct (Rltb _ _) eqn:E; [reflexivity|apply Rltb_false in E; lra]).
  rewrite E4. pose proof (rT_pos g M G H) as RP. rewrite choking_rT in C by assumption.
  assert (t1 : 1 <= bu_Tt4 b / Tt). { apply Rmult_le_reg_r with Tt; [assumption|]. unfold Rdiv. rewrite Rmult_assoc, Rinv_l by lra. lra. }
  assert (t2 : bu_Tt4 b / Tt * rT g M < rT g 1).
  { apply Rmult_lt_reg_r with (Tt / rT g M); [apply Rdiv_lt_0_compat; assumption|]. replace (bu_Tt4 b / Tt * rT g M * (Tt / rT g M)) with (bu_Tt4 b) by (field; lra). replace (rT g 1 * (Tt / rT g M)) with (Tt * (rT g 1 / rT g M)) by (field; lra). exact C. }
  destruct (heat_root g M _ G H N1 t1 t2) as (N & E & S & U). exists N. split; [exact S|]. split; [apply rayleigh_root; assumption|].
  split; [intros N' P' S' E'; apply U; try assumption; apply rayleigh_root; assumption|]. split; [unfold burn; cbn [bd_Tt]; exact E4|].
  assert (Q : Tt < bu_Tt4 b -> bd_Pt (burn b g Cp Tt Pt M N) < Pt).
  { intro Lt. assert (N <> M). { intros ->. assert (1 < bu_Tt4 b / Tt). { apply Rmult_lt_reg_r with Tt; [assumption|]. unfold Rdiv. rewrite Rmult_assoc, Rinv_l by lra. lra. } nra. }
    destruct (Ptr_loss g M N G H) as [_ Z]; [lra|lra|]. unfold burn. cbn [bd_Pt]. nra. }
  split; [|exact Q]. destruct (Req_dec N M) as [->|Ne].
  - unfold burn. cbn [bd_Pt]. rewrite Ptr_exp by assumption. replace (lrP g M - lrP g M) with 0 by ring. rewrite exp_0. lra.
  - destruct (Ptr_loss g M N G H) as [_ Z]; [lra|lra|]. unfold burn. cbn [bd_Pt]. nra.
Qed.
(** a request at or above it is cut down to it, and the flow leaves at Mach 1, which is then the
    only solution *)
Theorem C152_chokes b g Cp Tt Pt M : 1 < g -> 0 < Tt -> 0 < M -> choking_Tt g M Tt <= bu_Tt4 b ->
  Tt <= choking_Tt g M Tt /\
  (forall N, bd_Tt (burn b g Cp Tt Pt M N) = choking_Tt g M Tt) /\
  forall N, 0 < N -> (rayleigh_residual g M (burner_Tt4 b g M Tt / Tt) N = 0 <-> N = 1).
Proof.
  intros G T H C. assert (E4 : burner_Tt4 b g M Tt = choking_Tt g M Tt) by (unfold burner_Tt4; destruct (Rltb _ _) eqn:E; [apply Rltb_true in E; lra|reflexivity]).
  split; [apply choking_ge; assumption|]. split; [intro N; exact E4|]. intros N P. rewrite rayleigh_root by assumption. rewrite E4, choking_rT by assumption.
  pose proof (rT_pos g M G H). replace (Tt * (rT g 1 / rT g M) / Tt * rT g M) with (rT g 1) by (field; lra). apply choked_root; assumption.
Qed.
(** the fuel: its heat is what the stream gains; none is negative unless the inflow is hotter
    than the requested temperature *)
Theorem C152_fuel b g Cp Tt Pt M N : let o := burn b g Cp Tt Pt M N in bu_eff b * bu_fuel b <> Cp * bd_Tt o ->
  Cp * Tt + bd_f o * (bu_eff b * bu_fuel b) = (1 + bd_f o) * bd_ht o /\
  (0 < Cp -> Cp * bd_Tt o < bu_eff b * bu_fuel b -> (0 <= bd_f o <-> Tt <= bd_Tt o)).
Proof.
  intros o D. unfold o, burn in *. cbn [bd_f bd_ht bd_Tt] in *. set (T4 := burner_Tt4 b g M Tt) in *. split; [field; lra|].
  intros C L. assert (I : 0 < / (bu_eff b * bu_fuel b - Cp * T4)) by (apply Rinv_0_lt_compat; lra). unfold Rdiv. split; intro H.
  - destruct (Rle_lt_dec Tt T4); [assumption|]. assert (Cp * T4 - Cp * Tt < 0) by nra. nra.
  - apply Rmult_le_pos; [nra|lra].
Qed.
Theorem C152_cold_refuted b g Cp Tt Pt M N : 1 < g -> 0 < Cp -> 0 < Tt -> 0 < M -> bu_Tt4 b < Tt -> Cp * bu_Tt4 b < bu_eff b * bu_fuel b -> bd_f (burn b g Cp Tt Pt M N) < 0.
Proof.
  intros G C T H L D. pose proof (choking_ge g M Tt G H T) as [K _]. assert (E4 : burner_Tt4 b g M Tt = bu_Tt4 b) by (unfold burner_Tt4; destruct (Rltb _ _) eqn:E; [reflexivity|apply Rltb_false in E; lra]).
  unfold burn. cbn [bd_f]. rewrite E4. assert (0 < / (bu_eff b * bu_fuel b - Cp * bu_Tt4 b)) by (apply Rinv_0_lt_compat; lra). assert (Cp * bu_Tt4 b - Cp * Tt < 0) by nra. unfold Rdiv. nra.
Qed.
Example C152_case : let b := Burner 310 1 43000000 1 in 300 <= bu_Tt4 b /\ bu_Tt4 b < choking_Tt (7 / 5) (1 / 2) 300 /\ choking_Tt (7 / 5) (1 / 2) 300 < 500.
Proof. unfold choking_Tt. cbn [bu_Tt4]. lra. Qed.
Print Assumptions C149_solutions.
Print Assumptions C149_mass.
Print Assumptions C149_order.
Print Assumptions C149_same.
Print Assumptions C149_negative_refuted.
Print Assumptions C150_thrust.
Print Assumptions C150_throttle.
Print Assumptions C150_ambient.
Print Assumptions C150_best.
Print Assumptions C150_limit.
Print Assumptions C150_impulse.
Print Assumptions C150_engines_refuted.
Print Assumptions C150_design_refuted.
Print Assumptions C150_conditions_refuted.
Print Assumptions C151_state.
Print Assumptions C151_mass.
Print Assumptions C151_mass_refuted.
Print Assumptions C151_settings_refuted.
Print Assumptions C152_duct.
Print Assumptions C152_heats.
Print Assumptions C152_chokes.
Print Assumptions C152_fuel.
Print Assumptions C152_cold_refuted.
Print Assumptions C150_sized.
