(** * C153-C155: ramjet nozzle, scramjet, emissions *)
From Coq Require Import Reals Lra Psatz List Permutation.
From Verif Require Import PyBase M_Opt M_Engine S_Engine P_Opt P_Engine P_Deriv M_Rocket S_Rocket P_Rocket P_Rocket2 P_Rocket3 P_Rocket4.
Import ListNotations.
Local Open Scope R_scope.

(** ** C153: the nozzle with a limited range of area ratios *)
(** the solver found the Mach numbers of the four area ratios *)
Definition solved (g : R) (l : limited) (m : machs) : Prop :=
  1 < li_min l /\ li_min l <= li_max l /\
  (0 < ma_sub m < 1 /\ mach_area_residual ((li_max l + li_min l) / 2) g (ma_sub m) = 0) /\
  (1 < ma_sup m /\ mach_area_residual ((li_max l + li_min l) / 2) g (ma_sup m) = 0) /\
  (1 < ma_max m /\ mach_area_residual (li_max l) g (ma_max m) = 0) /\
  (1 < ma_min m /\ mach_area_residual (li_min l) g (ma_min m) = 0).
(** static pressure at which the gas fills the largest, the smallest area ratio *)
Definition full_pressure (g Pt M : R) : R := Pt / Rpower (1 + (g - 1) / 2 * M ^ 2) (g / (g - 1)).
Lemma isen_full g Pt M : 1 < g -> pressure_ratio_isentropic g M * Pt = full_pressure g Pt M.
Proof. intro G. rewrite isen_eq by assumption. unfold full_pressure. rewrite <- BofE. fold (kexp g). unfold Rdiv. ring. Qed.
Lemma area_of g a M : 1 < g -> 0 < a -> 0 < M -> mach_area_residual a g M = 0 -> area_star g M = a.
Proof.
  intros G A H E. rewrite mach_area_eq in E by lra. rewrite Rabs_right in E by lra. pose proof (area_pos g M G H).
  assert ((area_star g M - a) * (area_star g M + a) = 0) by (ring_simplify; lra). apply Rmult_integral in H1. lra.
Qed.
Lemma ratio_lt p Pt q : 0 < Pt -> (Rltb (p / Pt) q = true <-> p < q * Pt).
Proof.
  intro P. split; intro H.
  - apply Rltb_true in H. apply Rmult_lt_compat_r with (r := Pt) in H; [|assumption]. unfold Rdiv in H. rewrite Rmult_assoc, Rinv_l in H by lra. lra.
  - unfold Rltb. destruct (Rlt_dec (p / Pt) q) as [|N]; [reflexivity|]. exfalso. apply N. apply Rmult_lt_reg_r with Pt; [assumption|]. unfold Rdiv. rewrite Rmult_assoc, Rinv_l by lra. lra.
Qed.
Lemma ratio_gt p Pt q : 0 < Pt -> (Rltb q (p / Pt) = true <-> q * Pt < p).
Proof.
  intro P. split; intro H.
  - apply Rltb_true in H. apply Rmult_lt_compat_r with (r := Pt) in H; [|assumption]. unfold Rdiv in H. rewrite Rmult_assoc, Rinv_l in H by lra. lra.
  - unfold Rltb. destruct (Rlt_dec q (p / Pt)) as [|N]; [reflexivity|]. exfalso. apply N. apply Rmult_lt_reg_r with Pt; [assumption|]. unfold Rdiv. rewrite Rmult_assoc, Rinv_l by lra. lra.
Qed.
Lemma bool_iff (b : bool) (P : Prop) : (b = true <-> P) -> (b = false <-> ~ P).
Proof. intros [A B]. destruct b; split; intro H; try discriminate; try reflexivity; try (exfalso; apply H; apply A; reflexivity). intro Q. apply B in Q. discriminate. Qed.
(** below the pressure of the shock regime the exit pressure is the outside pressure, cut to the
    pressures of the largest and smallest area ratio, and the area ratio stays within its limits *)
Theorem C153_limits l g Cp r Po Tt Pt m : 1 < g -> 0 < r -> 0 < Tt -> 0 < Pt -> 0 < li_pid l -> 0 < Po -> solved g l m ->
  Po < pressure_ratio_shock ((li_max l + li_min l) / 2) g (ma_sup m) * (Pt * li_pid l) ->
  let o := limited_nozzle l g Cp r Po Tt Pt m in
  let lo := full_pressure g (Pt * li_pid l) (ma_max m) in let hi := full_pressure g (Pt * li_pid l) (ma_min m) in
  exists A, j_P o = Some (Rmax lo (Rmin Po hi)) /\ j_area o = Some A /\ li_min l <= A <= li_max l /\
  (hi < Po -> A = li_min l) /\ (Po < lo -> A = li_max l).
Proof.
  intros G R0 T0 P0 D0 Po0 (L1 & L2 & _ & _ & (M1 & E1) & (M2 & E2)) S o lo hi.
  apply area_of in E1; [|lra..]. apply area_of in E2; [|lra..].
  assert (PP : 0 < Pt * li_pid l) by (apply Rmult_lt_0_compat; assumption). set (Q := Pt * li_pid l) in *.
  assert (MM : ma_min m <= ma_max m). { destruct (Rle_lt_dec (ma_min m) (ma_max m)) as [|X]; [assumption|]. pose proof (area_sup g _ _ G (Rlt_le _ _ M1) X). lra. }
  pose proof (limited_cases g Po Q l m) as C. cbv zeta in C.
  assert (LH : lo <= hi). { unfold lo, hi. rewrite <- !isen_full by assumption. apply Rmult_le_compat_r; [lra|]. destruct MM as [X| ->]; [left; apply isen_falls; lra|lra]. }
  assert (HQ : hi < Q). { unfold hi. rewrite <- isen_full by assumption. pose proof (isen_lt1 g (ma_min m) G ltac:(lra)). nra. }
  assert (lo0 : 0 < lo) by (unfold lo; rewrite <- isen_full by assumption; apply Rmult_lt_0_compat; [apply isen_pos|assumption]).
  pose proof (ratio_lt Po Q (pressure_ratio_isentropic g (ma_max m)) PP) as B1. rewrite isen_full in B1 by assumption. fold lo in B1.
  pose proof (ratio_gt Po Q (pressure_ratio_isentropic g (ma_min m)) PP) as B2. rewrite isen_full in B2 by assumption. fold hi in B2.
  pose proof (ratio_lt Po Q (pressure_ratio_shock ((li_max l + li_min l) / 2) g (ma_sup m)) PP) as B3.
  assert (B3' := proj2 B3 S). rewrite B3' in C. clear B3. rewrite !isen_full in C by assumption. fold lo hi in C.
  assert (PE : limited_exit g Po Q l m = (Rmax lo (Rmin Po hi), mach_from g Q (Rmax lo (Rmin Po hi)))).
  { rewrite C. destruct (Rltb (Po / Q) (pressure_ratio_isentropic g (ma_max m))) eqn:K1.
    - assert (K1' := proj1 B1 eq_refl). rewrite Rmax_left; [reflexivity|]. rewrite Rmin_left; lra.
    - assert (K1' : ~ Po < lo) by (intro Z; apply B1 in Z; discriminate). destruct (Rltb (pressure_ratio_isentropic g (ma_min m)) (Po / Q)) eqn:K2; cbn [negb].
      + assert (K2' := proj1 B2 eq_refl). rewrite Rmin_right by lra. rewrite Rmax_right by assumption. reflexivity.
      + assert (K2' : ~ hi < Po) by (intro Z; apply B2 in Z; discriminate). rewrite Rmin_left by lra. rewrite Rmax_right by lra. reflexivity. }
  set (p := Rmax lo (Rmin Po hi)) in *.
  assert (p0 : lo <= p) by apply Rmax_l. assert (p1 : p <= hi) by (apply Rmax_lub; [assumption|apply Rmin_r]).
  destruct (limited_state l g Cp r Po Tt Pt m p G R0 T0 D0 ltac:(lra) ltac:(fold Q; lra) PE) as (MP & ST). fold Q in MP, ST. fold o in ST.
  set (M := mach_of g (Q / p)) in *. exists (area_star g M). rewrite ST. cbn [j_P j_area].
  assert (BM : Rpower (Bof g M) (kexp g) = Q / p) by (apply mach_of_P; lra).
  assert (pM : p = full_pressure g Q M). { unfold full_pressure. rewrite <- BofE. fold (kexp g). rewrite BM. field. lra. }
  assert (up : forall N, 0 < N -> full_pressure g Q N <= p -> M <= N).
  { intros N HN L. destruct (Rle_lt_dec M N) as [|X]; [assumption|]. rewrite pM in L. rewrite <- !isen_full in L by assumption. pose proof (isen_falls g N M G ltac:(lra) X). nra. }
  assert (dn : forall N, 0 < N -> p <= full_pressure g Q N -> N <= M).
  { intros N HN L. destruct (Rle_lt_dec N M) as [|X]; [assumption|]. rewrite pM in L. rewrite <- !isen_full in L by assumption. pose proof (isen_falls g M N G ltac:(lra) X). nra. }
  pose proof (up (ma_max m) ltac:(lra) p0) as U. pose proof (dn (ma_min m) ltac:(lra) p1) as V.
  split; [reflexivity|]. split; [reflexivity|]. split; [split|split].
  - rewrite <- E2. destruct V as [V| <-]; [left; apply area_sup; lra|lra].
  - rewrite <- E1. destruct U as [U| <-]; [left; apply area_sup; lra|lra].
  - intro X. rewrite <- E2. f_equal. apply Rle_antisym; [|exact V]. apply up; [lra|]. fold hi. unfold p. rewrite Rmin_right by lra. rewrite Rmax_right by assumption. lra.
  - intro X. rewrite <- E1. f_equal. apply Rle_antisym; [exact U|]. apply dn; [lra|]. fold lo. unfold p. rewrite Rmin_left by lra. rewrite Rmax_left by lra. lra.
Qed.
(** at and above it, the nozzle takes the outside pressure and any area ratio that goes with it *)
Theorem C153_state l g Cp r Po Tt Pt m P : 1 < g -> 0 < r -> 0 < Tt -> 0 < Pt -> 0 < li_pid l -> 0 < P -> P < Pt * li_pid l ->
  j_P (limited_nozzle l g Cp r Po Tt Pt m) = Some P ->
  exists Tt' T M u rho A, let o := limited_nozzle l g Cp r Po Tt Pt m in
  j_Tt o = Some Tt' /\ j_T o = Some T /\ j_M o = Some M /\ j_u o = Some u /\ j_rho o = Some rho /\ j_area o = Some A /\ j_Pt o = Some (Pt * li_pid l) /\
  0 < M /\ Tt' = total_T g T M /\ Pt * li_pid l = total_P g P M /\ rho = density r T P /\ u = speed g r T M /\ A = area_star g M.
Proof.
  intros G R0 T0 P0 D0 H L E.
  assert (PE : limited_exit g Po (Pt * li_pid l) l m = (P, mach_from g (Pt * li_pid l) P)).
  { pose proof (limited_cases g Po (Pt * li_pid l) l m) as C. cbv zeta in C. unfold limited_nozzle in E. rewrite C in E. cbn [j_P] in E. inversion E as [E']. rewrite C. rewrite E'. reflexivity. }
  destruct (limited_state l g Cp r Po Tt Pt m P G R0 T0 D0 H L PE) as (MP & ST). cbv zeta in ST.
  set (M := mach_of g (Pt * li_pid l / P)) in *. set (Tt' := Tt * Rpower (li_pid l) ((g - 1) / g * li_eff l)) in *.
  exists Tt', (Tt' / Bof g M), M, (M * sqrt (g * r * (Tt' / Bof g M))), (P / (r * (Tt' / Bof g M))), (area_star g M). cbv zeta. rewrite ST. cbn [j_Tt j_T j_M j_u j_rho j_area j_Pt].
  pose proof (Bof_pos g M G). do 7 (split; [reflexivity|]). split; [exact MP|]. split; [unfold total_T; rewrite <- BofE; field; lra|].
  split; [|split; [reflexivity|split; reflexivity]]. unfold total_P. rewrite <- BofE. fold (kexp g). unfold M. rewrite mach_of_P by lra. field. lra.
Qed.
Theorem C153_shock l g Cp r Po Tt Pt m : 1 < g -> 0 < Pt -> 0 < li_pid l ->
  full_pressure g (Pt * li_pid l) (ma_min m) < Po -> full_pressure g (Pt * li_pid l) (ma_max m) <= Po ->
  pressure_ratio_shock ((li_max l + li_min l) / 2) g (ma_sup m) * (Pt * li_pid l) <= Po ->
  j_P (limited_nozzle l g Cp r Po Tt Pt m) = Some Po /\
  (Pt * li_pid l < Po -> j_M (limited_nozzle l g Cp r Po Tt Pt m) = None /\ j_u (limited_nozzle l g Cp r Po Tt Pt m) = None).
Proof.
  intros G P0 D0 H1 H2 H3. assert (PP : 0 < Pt * li_pid l) by (apply Rmult_lt_0_compat; assumption). set (Q := Pt * li_pid l) in *.
  pose proof (ratio_lt Po Q (pressure_ratio_isentropic g (ma_max m)) PP) as B1. rewrite isen_full in B1 by assumption.
  pose proof (ratio_gt Po Q (pressure_ratio_isentropic g (ma_min m)) PP) as B2. rewrite isen_full in B2 by assumption.
  pose proof (ratio_lt Po Q (pressure_ratio_shock ((li_max l + li_min l) / 2) g (ma_sup m)) PP) as B3.
  pose proof (limited_cases g Po Q l m) as C. cbv zeta in C.
  assert (K1 : Rltb (Po / Q) (pressure_ratio_isentropic g (ma_max m)) = false) by (apply (bool_iff _ _ B1); lra).
  assert (K2 : Rltb (pressure_ratio_isentropic g (ma_min m)) (Po / Q) = true) by (apply B2; assumption).
  assert (K3 : Rltb (Po / Q) (pressure_ratio_shock ((li_max l + li_min l) / 2) g (ma_sup m)) = false) by (apply (bool_iff _ _ B3); lra).
  rewrite K1, K2, K3 in C. cbn [negb] in C. unfold limited_nozzle. fold Q. rewrite C. cbn [j_P j_M j_u]. split; [reflexivity|].
  intro L. rewrite mach_from_none by assumption. split; reflexivity.
Qed.
(** that pressure is the one behind a normal shock standing in an exit of the mean area ratio, and lies between the two isentropic ones *)
Theorem C153_shock_pressure l g m : 1 < g -> solved g l m ->
  pressure_ratio_shock ((li_max l + li_min l) / 2) g (ma_sup m) = k_P (oblique (ma_sup m) g 0 (PI / 2)) * full_pressure g 1 (ma_sup m) /\
  full_pressure g 1 (ma_sup m) < pressure_ratio_shock ((li_max l + li_min l) / 2) g (ma_sup m) < full_pressure g 1 (ma_sub m).
Proof.
  intros G (L1 & L2 & (M0 & E0) & (M3 & E3) & _). apply area_of in E0; [|lra..]. apply area_of in E3; [|lra..].
  rewrite <- !isen_full, !Rmult_1_r by assumption. split; [apply shock_meaning|apply shock_order]; assumption.
Qed.
(** there the limits do not hold: the reported area ratio can be any number above 1 *)
Theorem C153_limits_refuted l g Cp r Tt Pt m b : 1 < g -> 0 < r -> 0 < Tt -> 0 < Pt -> 0 < li_pid l -> solved g l m ->
  1 < b -> (li_max l + li_min l) / 2 < b ->
  exists Po, 0 < Po /\ Po < Pt * li_pid l /\ j_area (limited_nozzle l g Cp r Po Tt Pt m) = Some b.
Proof.
  intros G R0 T0 P0 D0 (L1 & L2 & (M0 & E0) & (M3 & E3) & (M1 & E1) & (M2 & E2)) B1 B2.
  apply area_of in E0; [|lra..]. apply area_of in E3; [|lra..].
  assert (S : pressure_ratio_shock ((li_max l + li_min l) / 2) g (ma_sup m) <= pressure_ratio_isentropic g (ma_sub m)) by (left; apply shock_order; assumption). assert (PP : 0 < Pt * li_pid l) by (apply Rmult_lt_0_compat; assumption). set (Q := Pt * li_pid l) in *.
  destruct (area_subsonic g b G B1) as (N & HN & EN). exists (full_pressure g Q N).
  assert (NL : N < ma_sub m). { destruct (Rtotal_order N (ma_sub m)) as [X|[X|X]]; [exact X|subst N; lra|]. pose proof (area_sub g _ _ G (proj1 M0) X ltac:(lra)). lra. }
  assert (F0 : 0 < full_pressure g Q N) by (rewrite <- isen_full by assumption; apply Rmult_lt_0_compat; [apply isen_pos|assumption]).
  assert (F1 : full_pressure g Q N < Q). { rewrite <- isen_full by assumption. pose proof (isen_lt1 g N G ltac:(lra)). nra. }
  split; [exact F0|]. split; [exact F1|].
  assert (lt : forall K, N < K -> full_pressure g Q K < full_pressure g Q N). { intros K HK. rewrite <- !isen_full by assumption. apply Rmult_lt_compat_r; [assumption|]. apply isen_falls; lra. }
  assert (P1 : j_P (limited_nozzle l g Cp r (full_pressure g Q N) Tt Pt m) = Some (full_pressure g Q N)).
  { apply C153_shock; try assumption; fold Q.
    - apply lt. lra.
    - left. apply lt. lra.
    - pose proof (lt (ma_sub m) NL) as X. rewrite <- (isen_full g Q (ma_sub m)) in X by assumption. assert (pressure_ratio_shock ((li_max l + li_min l) / 2) g (ma_sup m) * Q <= pressure_ratio_isentropic g (ma_sub m) * Q) by (apply Rmult_le_compat_r; lra). lra. }
  destruct (C153_state l g Cp r (full_pressure g Q N) Tt Pt m _ G R0 T0 P0 D0 F0 F1 P1) as (Tt' & T & M & u & rho & A & _ & _ & _ & _ & _ & EA & _ & MP & _ & EP & _ & _ & AA).
  rewrite EA, AA. f_equal. rewrite <- EN. f_equal. fold Q in EP.
  assert (X : full_pressure g Q M = full_pressure g Q N).
  { unfold total_P in EP. pose proof (Rpower_pos (1 + (g - 1) / 2 * M ^ 2) (g / (g - 1))). unfold full_pressure at 1. rewrite EP at 1. field. lra. }
  destruct (Rtotal_order M N) as [Y|[Y|Y]]; [|exact Y|].
  - rewrite <- !isen_full in X by assumption. pose proof (isen_falls g M N G ltac:(lra) Y). nra.
  - pose proof (lt M Y). lra.
Qed.
(** and at the shock pressure the exit pressure jumps *)
Theorem C153_jump_refuted l g Cp r Tt Pt m : 1 < g -> 0 < r -> 0 < Tt -> 0 < Pt -> 0 < li_pid l -> solved g l m ->
  let Q := Pt * li_pid l in let s := pressure_ratio_shock ((li_max l + li_min l) / 2) g (ma_sup m) * Q in
  full_pressure g Q (ma_min m) < s ->
  j_P (limited_nozzle l g Cp r s Tt Pt m) = Some s /\
  forall Po, full_pressure g Q (ma_min m) <= Po < s -> j_P (limited_nozzle l g Cp r Po Tt Pt m) = Some (full_pressure g Q (ma_min m)).
Proof.
  intros G R0 T0 P0 D0 S Q s H. assert (PP : 0 < Q) by (apply Rmult_lt_0_compat; assumption). assert (S' := S). destruct S as (L1 & L2 & _ & _ & (M1 & E1) & (M2 & E2)).
  apply area_of in E1; [|lra..]. apply area_of in E2; [|lra..].
  assert (MM : ma_min m <= ma_max m). { destruct (Rle_lt_dec (ma_min m) (ma_max m)) as [|X]; [assumption|]. pose proof (area_sup g _ _ G (Rlt_le _ _ M1) X). lra. }
  assert (LH : full_pressure g Q (ma_max m) <= full_pressure g Q (ma_min m)). { rewrite <- !isen_full by assumption. apply Rmult_le_compat_r; [lra|]. destruct MM as [X| ->]; [left; apply isen_falls; lra|lra]. }
  split.
  - apply C153_shock; try assumption; fold Q; try lra. fold s. lra.
  - intros Po HP. assert (0 < full_pressure g Q (ma_min m)) by (rewrite <- isen_full by assumption; apply Rmult_lt_0_compat; [apply isen_pos|assumption]).
    destruct (C153_limits l g Cp r Po Tt Pt m G R0 T0 P0 D0 ltac:(lra) S') as (A & EP & _); [fold Q; fold s; lra|]. rewrite EP. fold Q. f_equal. rewrite Rmin_right by lra. apply Rmax_right. assumption.
Qed.
Example C153_case : exists m, solved (7 / 5) (Limited 1 1 3 2) m.
Proof.
  assert (K : forall a, 1 < a -> exists lo hi, 0 < lo < 1 /\ 1 < hi /\ mach_area_residual a (7 / 5) lo = 0 /\ mach_area_residual a (7 / 5) hi = 0).
  { intros a A. destruct (two_roots (7 / 5) a ltac:(lra) A) as (lo & hi & L & H & E). exists lo, hi. split; [exact L|]. split; [exact H|].
    rewrite !mach_area_eq by lra. rewrite !Rabs_right by lra. split.
    - rewrite (proj2 (E lo (proj1 L)) (or_introl eq_refl)). ring.
    - rewrite (proj2 (E hi ltac:(lra)) (or_intror eq_refl)). ring. }
  destruct (K ((3 + 2) / 2) ltac:(lra)) as (a1 & a2 & A1 & A2 & A3 & A4). destruct (K 3 ltac:(lra)) as (b1 & b2 & B1 & B2 & B3 & B4). destruct (K 2 ltac:(lra)) as (c1 & c2 & C1 & C2 & C3 & C4).
  exists (Machs a1 a2 b2 c2). unfold solved. cbn [li_min li_max ma_sub ma_sup ma_max ma_min]. repeat split; try lra; assumption.
Qed.

(** ** C154: the scramjet *)
Definition psi_of (x : air) (thetas : list R) : R := fst (shock_train (ai_M x) (ai_gamma x) thetas).
Definition airflow_state (x : air) : Prop :=
  1 < ai_gamma x /\ 0 < ai_R x /\ 0 < ai_T x /\ 0 < ai_p x /\ perfect (ai_gamma x) (ai_cp x) (ai_R x) /\
  0 < ai_u x /\ ai_u x = speed (ai_gamma x) (ai_R x) (ai_T x) (ai_M x).
(** the inlet compresses without loss of energy *)
Theorem C154_inlet x eta thetas Tt Pt : airflow_state x -> let psi := psi_of x thetas in 0 < psi ->
  ai_cp x * (psi * ai_T x) <= ai_cp x * ai_T x + ai_u x ^ 2 / 2 ->
  let i := scramjet_inlet x eta thetas Tt Pt in
  if_T i = psi * ai_T x /\ ai_cp x * if_T i + if_u i ^ 2 / 2 = ai_cp x * ai_T x + ai_u x ^ 2 / 2 /\
  if_u i = speed (ai_gamma x) (ai_R x) (if_T i) (if_M i) /\ if_Tt i = Tt /\
  (eta = 1 -> if_P i = ai_p x * Rpower psi (ai_cp x / ai_R x)).
Proof.
  intros (G & R0 & T0 & P0 & Pf & U0 & UE) psi K L i. unfold i, scramjet_inlet. unfold psi, psi_of in K, L |- *.
  destruct (shock_train (ai_M x) (ai_gamma x) thetas) as [s p]. cbn [fst] in *. cbn [if_T if_u if_M if_Tt if_P]. clear i psi.
  unfold perfect in Pf. assert (CP : 0 < ai_cp x) by nra.
  assert (GRT : 0 < ai_gamma x * ai_R x * ai_T x) by (repeat apply Rmult_lt_0_compat; lra).
  assert (UU : ai_u x * ai_u x = ai_M x * ai_M x * (ai_gamma x * ai_R x * ai_T x)).
  { rewrite UE. unfold speed, sound. transitivity (ai_M x * ai_M x * (sqrt (ai_gamma x * ai_R x * ai_T x) * sqrt (ai_gamma x * ai_R x * ai_T x))); [ring|]. rewrite sqrt_sqrt by lra. reflexivity. }
  assert (A : 0 <= ai_u x * ai_u x - 2 * ai_cp x * ai_T x * (s - 1)) by nra.
  split; [reflexivity|]. split; [|split; [|split; [reflexivity|]]].
  - replace (sqrt (ai_u x * ai_u x - 2 * ai_cp x * ai_T x * (s - 1)) ^ 2) with (sqrt (ai_u x * ai_u x - 2 * ai_cp x * ai_T x * (s - 1)) * sqrt (ai_u x * ai_u x - 2 * ai_cp x * ai_T x * (s - 1))) by ring. rewrite sqrt_sqrt by assumption. field.
  - unfold speed, sound. assert (CE : ai_cp x = ai_gamma x * ai_R x / (ai_gamma x - 1)) by (apply Rmult_eq_reg_r with (ai_gamma x - 1); [rewrite Pf; field; lra|lra]).
    set (w := ai_gamma x * ai_R x * (s * ai_T x)). assert (W : 0 < w) by (unfold w; apply Rmult_lt_0_compat; [apply Rmult_lt_0_compat; lra|apply Rmult_lt_0_compat; assumption]).
    set (q := 2 / (ai_gamma x - 1) * (ai_T x / (s * ai_T x) * (1 + (ai_gamma x - 1) / 2 * ai_M x * ai_M x) - 1)).
    assert (E : ai_u x * ai_u x - 2 * ai_cp x * ai_T x * (s - 1) = q * w).
    { rewrite UU, CE. unfold q, w. field. repeat split; lra. }
    rewrite E. apply sqrt_mult; [|lra]. rewrite E in A. destruct (Rle_lt_dec 0 q); [assumption|]. nra.
  - intros ->. replace (s / (s * (1 - 1) + 1)) with s by field. reflexivity.
Qed.
(** the engine's inlet is handed the stagnation state of the air *)
Theorem C154_ram x : ram_Tt x = total_T (ai_gamma x) (ai_T x) (ai_M x) /\ ram_Pt x = total_P (ai_gamma x) (ai_p x) (ai_M x).
Proof. unfold ram_Tt, ram_Pt, total_T, total_P. split; [ring|]. do 2 f_equal. ring. Qed.
(** the burner's momentum and energy balances *)
Theorem C154_burner s x i : 0 < ai_cp x -> 0 < ai_R x -> 0 < if_T i -> let h := supersonic_combustion s x i in 0 < 1 + ho_f h ->
  (1 + ho_f h) * ho_V h = if_u i + ho_f h * (sc_axial s * if_u i) - sc_drag s / 2 * if_u i /\
  (1 + ho_f h) * (ho_cp h * ho_T h + ho_V h ^ 2 / 2)
  = ho_cp h * if_T i + if_u i ^ 2 / 2
    + ho_f h * (sc_eff s * sc_fuel s + sc_hf s + ho_cp h * ai_T x + (sc_ratio s * if_u i) ^ 2 / 2) /\
  ho_P h = if_P i /\ ho_f h = sc_phi s * sc_stoich s.
Proof.
  intros C R0 T h F. unfold h, supersonic_combustion in *. cbn [ho_f ho_V ho_T ho_cp ho_P] in *. set (f := sc_phi s * sc_stoich s) in *. set (c := ai_cp x * (145 / 100)) in *.
  assert (0 < c) by (unfold c; lra). split; [field; lra|]. split; [field; repeat split; lra|]. split; reflexivity.
Qed.
(** the reported stagnation temperature of the burned gas is not its stagnation temperature,
    except at Mach 1: it is off by T (M^2 - 1) *)
Theorem C154_total_refuted s x i : let h := supersonic_combustion s x i in
  ho_Tt h - total_T (ho_gamma h) (ho_T h) (ho_M h) = ho_T h * (ho_M h ^ 2 - 1) /\
  (ho_T h <> 0 -> 0 <= ho_M h -> (ho_Tt h = total_T (ho_gamma h) (ho_T h) (ho_M h) <-> ho_M h = 1)).
Proof.
  intro h. assert (E : ho_Tt h - total_T (ho_gamma h) (ho_T h) (ho_M h) = ho_T h * (ho_M h ^ 2 - 1)).
  { change (ho_Tt h) with (ho_T h * (1 + (ho_gamma h - 1) / 2) * ho_M h * ho_M h). unfold total_T. field. }
  split; [exact E|]. intros T M. split; intro H.
  - assert (Z : ho_T h * (ho_M h ^ 2 - 1) = 0) by lra. apply Rmult_integral in Z. destruct Z as [Z|Z]; [contradiction|]. nra.
  - replace (ho_T h * (ho_M h ^ 2 - 1)) with 0 in E by (rewrite H; ring). lra.
Qed.
(** the nozzle conserves energy and mass *)
Theorem C154_nozzle eta ex x h : 0 < ai_p x -> 0 < ex -> 0 < ai_R x -> 0 < ai_T x -> 0 < ho_cp h ->
  let p := scramjet_nozzle eta ex x h (ho_cp h) (ho_gamma h) in
  0 < pl_T p -> ho_cp h * pl_T p < ho_cp h * ho_T h + ho_V h ^ 2 / 2 ->
  ho_cp h * pl_T p + pl_u p ^ 2 / 2 = ho_cp h * ho_T h + ho_V h ^ 2 / 2 /\ pl_P p = ai_p x * ex /\ 0 < pl_u p /\
  forall A0, density (ai_R x) (pl_T p) (pl_P p) * pl_u p * (pl_area p * A0) = (1 + ho_f h) * (density (ai_R x) (ai_T x) (ai_p x) * ai_u x * A0).
Proof.
  intros P0 X R0 T0 C p T L. assert (UE : pl_u p = sqrt (ho_V h * ho_V h + 2 * ho_cp h * (ho_T h - pl_T p))) by reflexivity.
  assert (A : 0 < ho_V h * ho_V h + 2 * ho_cp h * (ho_T h - pl_T p)) by nra. assert (U : 0 < pl_u p) by (rewrite UE; apply sqrt_lt_R0; exact A).
  assert (AE : pl_area p = (1 + ho_f h) * (ai_p x / pl_P p) * (pl_T p / ai_T x) * (ai_u x / pl_u p)) by reflexivity.
  assert (PE : pl_P p = ai_p x * ex) by reflexivity. split; [|split; [exact PE|split; [exact U|]]].
  - replace (pl_u p ^ 2) with (pl_u p * pl_u p) by ring. rewrite UE, sqrt_sqrt by lra. field.
  - intro A0. rewrite AE. unfold density. assert (0 < pl_P p) by (rewrite PE; apply Rmult_lt_0_compat; assumption). field. repeat split; lra.
Qed.
(** the thrust is momentum plus pressure; [A0] is the area of the captured stream *)
Theorem C154_thrust q eta ex x h g t n Tt Pt A0 : 0 < ai_p x -> 0 < ex -> 0 < ai_R x -> 0 < ai_T x -> 0 < ho_cp h -> 0 < ai_u x -> ai_a x <> 0 ->
  let p := scramjet_nozzle eta ex x h (ho_cp h) (ho_gamma h) in
  0 < pl_T p -> ho_cp h * pl_T p < ho_cp h * ho_T h + ho_V h ^ 2 / 2 ->
  let o := stream_thrust q x g t n (ho_f h) Tt Pt p in
  let m := density (ai_R x) (ai_T x) (ai_p x) * ai_u x * A0 in so_mdot o = m ->
  so_thrust o = n * t * ((1 + ho_f h) * m * pl_u p - m * ai_u x + (pl_P p - ai_p x) * (pl_area p * A0)) /\
  so_power o = so_thrust o * ai_u x.
Proof.
  intros P0 X R0 T0 C U0 N p T L. pose (o := stream_thrust q x g t n (ho_f h) Tt Pt p). 
  destruct (C154_nozzle eta ex x h P0 X R0 T0 C T L) as (_ & PE & U & MC). fold p in PE, U, MC. cbv zeta. intro E. split; [|reflexivity].
  assert (TE : so_thrust o = (((1 + ho_f h) * (pl_u p * (1 + ai_R x * pl_T p / pl_u p ^ 2)) - ai_u x * (1 + ai_R x * ai_T x / ai_u x ^ 2) - ai_R x * ai_T x / ai_u x * (pl_area p - 1)) / ai_a x) * ai_a x * so_mdot o * n * t) by reflexivity.
  fold o. fold o in E. rewrite TE, E.
  assert (AE : pl_area p = (1 + ho_f h) * (ai_p x / pl_P p) * (pl_T p / ai_T x) * (ai_u x / pl_u p)) by reflexivity.
  assert (0 < pl_P p) by (rewrite PE; apply Rmult_lt_0_compat; assumption). rewrite AE. unfold density. field. repeat split; assumption || lra.
Qed.
(** fuel: the fuel-air ratio times the air that flows *)
Theorem C154_fuel q x g t n f Tt Pt p : let o := stream_thrust q x g t n f Tt Pt p in
  so_nd o <> 0 -> ai_a x <> 0 -> g <> 0 -> f <> 0 -> 0 <= so_mdot o * n * t * f ->
  so_fuel o = so_mdot o * n * t * f /\ so_thrust o = so_fuel o * so_isp o * g.
Proof.
  intros o Z A Hg Hf P. assert (E : so_fuel o = Rmax (so_nd o * ai_a x * so_mdot o * n * t * (f * g / (so_nd o * ai_a x)) / g) 0) by reflexivity.
  assert (V : so_nd o * ai_a x * so_mdot o * n * t * (f * g / (so_nd o * ai_a x)) / g = so_mdot o * n * t * f) by (field; repeat split; assumption).
  rewrite V in E. rewrite Rmax_left in E by assumption. split; [exact E|]. rewrite E.
  change (so_isp o) with (so_nd o * ai_a x / (f * g)). change (so_thrust o) with (so_nd o * ai_a x * so_mdot o * n * t). field. split; assumption.
Qed.
(** sized at a flight state, the engine gives its design thrust there, and throttles linearly *)
Theorem C154_design j x g t : let j' := size_scramjet j x g in let h := flame j x in
  let p := scramjet_nozzle (sj_nozzle_eta j) (sj_expansion j) x h (ho_cp h) (ho_gamma h) in
  0 < ss_Tref (sj_set j) -> 0 < ss_Pref (sj_set j) -> 0 < pl_Tt p -> 0 < pl_Pt p -> ai_a x <> 0 -> sj_engines j <> 0 ->
  so_nd (stream_thrust (sj_set j) x g 1 (sj_engines j) (ho_f h) (pl_Tt p) (pl_Pt p) p) <> 0 ->
  exists o, evaluate_scramjet j' x g t = Ok o /\ so_thrust o = ss_design (sj_set j) * t.
Proof.
  intros j' h p T P Tt Pt A N Z. eexists. split; [reflexivity|]. fold h. fold p.
  set (nd := so_nd (stream_thrust (sj_set j) x g 1 (sj_engines j) (ho_f h) (pl_Tt p) (pl_Pt p) p)) in *.
  set (s := sqrt (ss_Tref (sj_set j) / pl_Tt p)). assert (0 < s) by (apply sqrt_lt_R0, Rdiv_lt_0_compat; assumption).
  transitivity (nd * ai_a x * (ss_design (sj_set j) / (nd * ai_a x * sj_engines j * 1) / (s * (pl_Pt p / ss_Pref (sj_set j))) * s * (pl_Pt p / ss_Pref (sj_set j))) * sj_engines j * t); [reflexivity|].
  field. repeat split; try lra; assumption.
Qed.
(** but its air flow is that of the sizing condition in every flight state *)
Theorem C154_airflow_refuted j x g y z g' t t' o o' : evaluate_scramjet (size_scramjet j x g) y g' t = Ok o -> evaluate_scramjet (size_scramjet j x g) z g' t' = Ok o' -> so_mdot o = so_mdot o'.
Proof. intros E E'. unfold evaluate_scramjet, size_scramjet in E, E'. cbn [sj_linked sj_ref] in E, E'. inversion E. inversion E'. reflexivity. Qed.
(** and an engine that was never sized cannot be evaluated *)
Theorem C154_unsized j x g t : sj_linked j = false -> evaluate_scramjet j x g t = Err AttributeError.
Proof. intro E. unfold evaluate_scramjet. rewrite E. reflexivity. Qed.
Example C154_case : let x := Air (7 / 5) 1003 (2006 / 7) 1000 200 (1000 / sqrt (7 / 5 * (2006 / 7) * 200)) 1000 300 in airflow_state x /\ 0 < psi_of x [].
Proof.
  cbv zeta. assert (S : 0 < sqrt (7 / 5 * (2006 / 7) * 200)) by (apply sqrt_lt_R0; lra).
  unfold airflow_state, perfect, speed, sound. cbn [ai_gamma ai_R ai_T ai_p ai_cp ai_u ai_M]. split; [|cbn; lra].
  repeat split; try lra. field. lra.
Qed.

(** ** C155: emissions *)
(** carbon dioxide, water and sulphur dioxide are fixed multiples of the fuel burned *)
Lemma dot_scale I m k : length I = length m -> dot I (map (fun x => x * k) m) = k * dot I m.
Proof.
  revert m. induction I as [|i I IH]; intros [|x m] L; try discriminate.
  - unfold dot. cbn. ring.
  - injection L as L. specialize (IH m L). unfold dot in *. cbn [map map2 fold_right]. rewrite IH. ring.
Qed.
Theorem C155_totals I mdot nox : length I = length mdot ->
  let e := emission_total I mdot nox in let burned := dot I mdot in
  em_co2 e = 3155 / 1000 * burned /\ em_h2o e = 124 / 100 * burned /\ em_so2 e = 8 / 10000 * burned.
Proof. intros L e burned. unfold e, emission_total. cbn [em_co2 em_h2o em_so2]. rewrite !dot_scale by assumption. unfold burned. repeat split; lra. Qed.
(** nitrogen oxides lie between the fuel times the smallest and times the largest index *)
Theorem C155_nox I mdot nox lo hi : length I = length mdot -> length mdot = length nox ->
  Forall (fun i => 0 <= i) I -> Forall (fun m => 0 <= m) mdot -> Forall (fun x => lo <= x <= hi) nox ->
  lo * dot I mdot <= em_nox (emission_total I mdot nox) <= hi * dot I mdot.
Proof.
  unfold emission_total. cbn [em_nox]. revert mdot nox. induction I as [|i I IH]; intros [|m mdot] [|x nox] L L' FI FM FX; try discriminate.
  - unfold dot. cbn. lra.
  - injection L as L. injection L' as L'. inversion FI; subst. inversion FM; subst. inversion FX; subst. specialize (IH mdot nox L L' H2 H4 H6).
    unfold dot in *. cbn [map2 fold_right]. assert (0 <= i * m) by (apply Rmult_le_pos; assumption). assert (i * m * lo <= i * m * x <= i * m * hi) by (split; apply Rmult_le_compat_l; lra). lra.
Qed.
(** and the index grows with the pressure and both temperatures *)
Theorem C155_index p T3 T4 p' T3' T4' : 0 < p -> p <= p' -> T3 <= T3' -> 0 < T4 -> T4 <= T4' ->
  0 < nox_index p T3 T4 <= nox_index p' T3' T4' /\ (p < p' \/ T3 < T3' \/ T4 < T4' -> nox_index p T3 T4 < nox_index p' T3' T4').
Proof.
  intros P L1 L2 T L3. unfold nox_index.
  assert (A : 0 < Rpower (p / 439) (37 / 100)) by apply Rpower_pos. assert (A' : 0 < Rpower (p' / 439) (37 / 100)) by apply Rpower_pos.
  assert (B : 0 < exp ((T3 - 1471) / 345)) by apply exp_pos. assert (B' : 0 < exp ((T3' - 1471) / 345)) by apply exp_pos.
  assert (AL : Rpower (p / 439) (37 / 100) <= Rpower (p' / 439) (37 / 100)) by (apply Rpower_le_base; lra).
  assert (AS : p < p' -> Rpower (p / 439) (37 / 100) < Rpower (p' / 439) (37 / 100)) by (intro; apply Rpower_lt_base; lra).
  assert (BS : T3 < T3' -> exp ((T3 - 1471) / 345) < exp ((T3' - 1471) / 345)) by (intro; apply exp_increasing; lra).
  assert (BL : exp ((T3 - 1471) / 345) <= exp ((T3' - 1471) / 345)) by (destruct L2 as [X|X]; [left; apply BS; assumption|rewrite X; lra]).
  set (a := Rpower (p / 439) _) in *. set (a' := Rpower (p' / 439) _) in *. set (b := exp ((T3 - _) / _)) in *. set (b' := exp ((T3' - _) / _)) in *.
  assert (X1 : 0 < T4 * a) by (apply Rmult_lt_0_compat; assumption). assert (X2 : 0 < T4 * a * b) by (apply Rmult_lt_0_compat; assumption).
  assert (Y1 : T4 * a <= T4' * a') by (apply Rmult_le_compat; lra). assert (Y2 : T4 * a * b <= T4' * a' * b') by (apply Rmult_le_compat; lra).
  split; [lra|]. intro D. assert (T4 * a * b < T4' * a' * b'); [|lra].
  destruct D as [D|[D|D]].
  - specialize (AS D). assert (T4 * a < T4' * a') by nra. apply Rlt_le_trans with (T4' * a' * b); [apply Rmult_lt_compat_r; assumption|apply Rmult_le_compat_l; lra].
  - specialize (BS D). apply Rlt_le_trans with (T4 * a * b'); [apply Rmult_lt_compat_l; assumption|apply Rmult_le_compat_r; lra].
  - assert (T4 * a < T4' * a') by nra. apply Rlt_le_trans with (T4' * a' * b); [apply Rmult_lt_compat_r; assumption|apply Rmult_le_compat_l; lra].
Qed.
Example C155_case : em_co2 (emission_total [2; 3] [1; 1 / 2] [1 / 100; 1 / 50]) = 3155 / 1000 * (7 / 2).
Proof. destruct (C155_totals [2; 3] [1; 1 / 2] [1 / 100; 1 / 50] eq_refl) as [E _]. rewrite E. unfold dot. cbn. lra. Qed.
Print Assumptions C153_limits.
Print Assumptions C153_state.
Print Assumptions C153_shock.
Print Assumptions C153_shock_pressure.
Print Assumptions C153_limits_refuted.
Print Assumptions C153_jump_refuted.
Print Assumptions C154_inlet.
Print Assumptions C154_burner.
Print Assumptions C154_total_refuted.
Print Assumptions C154_nozzle.
Print Assumptions C154_thrust.
Print Assumptions C154_fuel.
Print Assumptions C154_design.
Print Assumptions C154_airflow_refuted.
Print Assumptions C154_unsized.
Print Assumptions C155_totals.
Print Assumptions C155_nox.
Print Assumptions C155_index.
Print Assumptions C154_ram.
