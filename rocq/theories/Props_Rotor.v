(** * C109-C116: rotors and propellers *)
From Coq Require Import Reals List Bool Arith Lra Lia Psatz.
From Verif Require Import PyBase M_Opt P_Opt M_Drag P_Friction M_Rot P_Rot S_Rot Props_Rot M_Noise P_Noise M_Evtol S_Elec S_Evtol P_Evtol P_Weight M_Rotor S_Rotor P_Rotor P_Rotor2 P_Rotor3.
Import ListNotations.
Local Open Scope R_scope.

(** ** C109: stations along the blade and around the disc *)
(** the widths given to the stations integrate every loading by trapezoids, from the first station to the last; fewer than two stations raise *)
Theorem C109_widths : forall r,
  ((length r < 2)%nat -> deltar r = Err IndexError) /\
  ((2 <= length r)%nat -> exists w, deltar r = Ok w /\ length w = length r /\ (forall f, weighted f r w = under f r) /\ (rising r -> Forall (fun d => 0 < d) w)).
Proof.
  intros r. split; [apply widths_raise|]. intros H. destruct (widths_ok r H) as [w W]. exists w. split; [exact W|].
  split; [apply (widths_length r w W)|]. split; [intros f; now apply widths_sum|]. intros R. now apply (widths_pos r).
Qed.
(** a loading that is linear along the radius is integrated exactly *)
Lemma under_linear : forall a b r, under (fun x => a * x + b) r = match r with [] => 0 | x :: _ => (a * (last r 0) * (last r 0) / 2 + b * last r 0) - (a * x * x / 2 + b * x) end.
Proof.
  intros a b r. induction r as [|x r IH]; [reflexivity|]. destruct r as [|y r]; [cbn; field|].
  change (under (fun x => a * x + b) (x :: y :: r)) with ((y - x) * ((a * x + b) + (a * y + b)) / 2 + under (fun x => a * x + b) (y :: r)).
  rewrite IH. change (last (x :: y :: r) 0) with (last (y :: r) 0). field.
Qed.
Theorem C109_linear_loading : forall r w a b, deltar r = Ok w ->
  weighted (fun x => a * x + b) r w = (a * (last r 0) * (last r 0) / 2 + b * last r 0) - (a * hd 0 r * hd 0 r / 2 + b * hd 0 r).
Proof.
  intros r w a b H. rewrite (widths_sum _ _ _ H), under_linear. destruct r; [discriminate|]. reflexivity.
Qed.
Example C109_widths_ex : exists w, deltar [1; 2; 4] = Ok w /\ rising [1; 2; 4] /\ w = [/ 2; 3 / 2; 1].
Proof.
  eexists. split; [reflexivity|]. split; [cbn; lra|]. cbn. f_equal; [lra|f_equal; [lra|f_equal; lra]].
Qed.
(** azimuths divide the circle evenly, and what varies as sine and cosine with any phase averages to nothing, with two stations or more *)
Theorem C109_azimuths : forall na,
  length (azimuths na) = na /\ (forall k, (k < na)%nat -> nth k (azimuths na) 0 = 2 * PI * INR k / INR na) /\
  ((2 <= na)%nat -> forall a b phase, mean (map (fun psi => a * sin (phase + psi) + b * cos (phase + psi)) (azimuths na)) = 0).
Proof.
  intros na. split; [apply azimuths_length|]. split; [intros; now apply azimuths_nth|]. intros H a b p. now apply mean_cycle.
Qed.
(** one station around the disc does not average *)
Theorem C109_single_azimuth_refuted : exists a b, mean (map (fun psi => a * sin (0 + psi) + b * cos (0 + psi)) (azimuths 1)) <> 0.
Proof.
  exists 0, 1. rewrite azimuths_eq. cbn. unfold mean, total. cbn. replace (0 + 2 * PI * 0 / 1) with 0 by field. rewrite cos_0. lra.
Qed.
(** a rotor with a swept blade cannot be spun: every sweep that is not zero raises, whatever the numbers of stations *)
Theorem C109_swept_blade_refuted : forall sweep na, (1 <= na)%nat ->
  ((exists s, In s sweep /\ s <> 0) -> swept sweep na = Err ValueError) /\ ((forall s, In s sweep -> s = 0) -> swept sweep na = Ok false).
Proof. intros sweep na H. split; [now apply swept_raises|apply swept_none]. Qed.

(** ** C110: energy at the blade *)
(** the induced velocity (Wa - Ua, Wt - Ut) is at right angles to the flow (Wa, Wt) at the blade, for every wake angle, when there is no radial flow *)
Theorem C110_induction_is_perpendicular : forall Ua Ut psi,
  let U := sqrt (Ua * Ua + Ut * Ut) in let Wa := axial_flow U Ua psi in let Wt := tangential_flow U Ut psi in
  (Wa - Ua) * Wa + (Wt - Ut) * Wt = 0 /\
  (Wa * Wa + Wt * Wt) + ((Wa - Ua) * (Wa - Ua) + (Wt - Ut) * (Wt - Ut)) = Ua * Ua + Ut * Ut /\
  fst (va_vt U Ua Ut psi) = Wa - Ua /\ snd (va_vt U Ua Ut psi) = Ut - Wt.
Proof.
  intros Ua Ut psi U Wa Wt. assert (U * U = Ua * Ua + Ut * Ut) as UU by (unfold U; apply hyp_square).
  pose proof (flow_orthogonal U Ua Ut psi) as O. cbv zeta in O. fold Wa Wt in O. pose proof (flow_pythagoras U Ua Ut psi UU) as P. fold Wa Wt in P.
  split; [lra|]. split; [lra|]. split; reflexivity.
Qed.
(** with radial flow it is not *)
Theorem C110_radial_flow_refuted : exists Ua Ut ur psi,
  let U := sqrt (Ua * Ua + Ut * Ut + ur * ur) in let Wa := axial_flow U Ua psi in let Wt := tangential_flow U Ut psi in
  (Wa - Ua) * Wa + (Wt - Ut) * Wt <> 0.
Proof.
  exists 0, 0, 1, 0. cbv zeta. pose proof (flow_orthogonal (sqrt (0 * 0 + 0 * 0 + 1 * 1)) 0 0 0) as O. cbv zeta in O.
  rewrite sqrt_sqrt in O by lra. lra.
Qed.
(** power equals thrust times speed plus what the induced flow and friction take, for every wake *)
Theorem C110_power_balance : forall c x v wake rep, spin_axial c x v wake = Ok rep -> 0 < c_throttle c -> 0 < c_omega c ->
  let V := axial_speed (vx v) in
  o_power rep = V * o_thrust rep + x_blades x * losses c V (elements_of c x V wake) /\ o_power rep = c_omega c * o_torque rep.
Proof.
  intros c x v wake rep H T O V. rewrite (spin_report _ _ _ _ _ H). fold V. unfold report_of. cbv zeta. cbn [o_power o_thrust o_torque].
  destruct (Req_EM_T (c_omega c) 0); [lra|]. lcase (c_omega c) 0; [lra|]. lcase 0 (c_throttle c); [|lra]. cbn [negb].
  split; [|reflexivity]. unfold axial_loads, elements_of. cbn [l_torque l_thrust].
  destruct (deltar (map s_r (x_stations x))) as [dr|er].
  - pose proof (axial_balance c x V (combine (x_stations x) dr) wake) as B.
    replace (c_omega c * (x_blades x * total (map (fun t => e_torque (snd t)) (axial_elements c x V (combine (x_stations x) dr) wake))))
      with (x_blades x * (c_omega c * total (map (fun t => e_torque (snd t)) (axial_elements c x V (combine (x_stations x) dr) wake)))) by ring.
    rewrite B. ring.
  - unfold losses, total. cbn. ring.
Qed.
(** once the wake satisfies its equation at every station, the losses cannot be negative: a propeller never gives more than it takes, and a
    windmill takes no more from the air than drag times speed *)
Theorem C110_no_more_out_than_in : forall c x v wake rep, spin_axial c x v wake = Ok rep -> 0 < c_throttle c -> 0 < c_omega c ->
  sound_air (c_air c) -> sound_rotor x -> Forall (fun s => drags (s_section s)) (x_stations x) -> settled c x (axial_speed (vx v)) wake ->
  let V := axial_speed (vx v) in
  V * o_thrust rep <= o_power rep /\
  (0 < o_power rep -> exists eta, o_etap rep = Fin eta /\ eta = V * o_thrust rep / o_power rep /\ eta <= 1) /\
  (o_power rep < 0 -> V * o_thrust rep < 0).
Proof.
  intros c x v wake rep H T O SA SR DR W V. destruct (C110_power_balance c x v wake rep H T O) as [P _]. fold V in P.
  pose proof (spin_losses c x V wake SA SR DR W) as L. pose proof (so_blades x SR) as B.
  assert (V * o_thrust rep <= o_power rep) as K by nra. split; [exact K|]. split; [|lra].
  intros PP. assert (o_etap rep = quot (V * o_thrust rep) (o_power rep)) as E.
  { rewrite (spin_report _ _ _ _ _ H). fold V. unfold report_of. cbv zeta. cbn [o_power o_thrust o_etap]. unfold at_rest.
    destruct (Req_EM_T (c_omega c) 0); [lra|]. lcase (c_omega c) 0; [lra|]. lcase 0 (c_throttle c); [|lra]. cbn [negb]. reflexivity. }
  rewrite E, quot_fin by lra. eexists. split; [reflexivity|]. split; [reflexivity|]. apply frac_le; lra.
Qed.
(** a station of given place and chord whose section has just the lift that the wake at angle pi/2 asks for *)
Definition tuned (c : case) (x : rotor) (V r ch : R) : station :=
  let U := sqrt (V * V + (c_omega c * r) * (c_omega c * r)) in
  let Wa := axial_flow U V (PI / 2) in let Wt := tangential_flow U (c_omega c * r) (PI / 2) in
  let q := 4 * inflow_ratio r (x_tip x) Wa Wt * x_tip x / (PI * x_blades x * r) in
  let cl := (c_omega c * r - Wt) * (4 * PI * r / x_blades x) * tip_loss r (x_tip x) Wa Wt (x_blades x) * sqrt (1 + q * q) / (/ 2 * speed Wa Wt * ch) in
  {| s_r := r; s_c := ch; s_twist := 0; s_section := Polars [(fun _ _ => cl, fun _ _ => 1 / 100)] 0 |}.
Lemma tuned_settled : forall c x V r ch, 0 < V -> 0 < c_omega c -> 0 < r < x_tip x -> 0 < ch -> 0 < x_blades x -> settled_at c x V (tuned c x V r ch) (PI / 2).
Proof.
  intros c x V r ch HV HO HR HC HB. unfold settled_at, tuned, flow_of. cbn [s_r s_c s_twist s_section fst snd]. cbv zeta.
  assert (0 < c_omega c * r) as UT by (apply Rmult_lt_0_compat; lra). set (Ut := c_omega c * r) in *.
  assert (0 < sqrt (V * V + Ut * Ut)) as U0 by (apply sqrt_lt_R0; nra). set (U := sqrt (V * V + Ut * Ut)) in *.
  assert (0 < axial_flow U V (PI / 2)) as WA by (unfold axial_flow; rewrite sin_PI2; lra).
  assert (0 < tangential_flow U Ut (PI / 2)) as WT by (unfold tangential_flow; rewrite cos_PI2; lra).
  assert (0 < Ut - tangential_flow U Ut (PI / 2)) as VT by (unfold tangential_flow; rewrite cos_PI2; lra).
  split; [|split; assumption].
  unfold residual, coefficients. cbn [s_r s_c s_section section_coefficients nth_error fst snd]. cbv zeta.
  set (Wa := axial_flow U V (PI / 2)) in *. set (Wt := tangential_flow U Ut (PI / 2)) in *. set (q := 4 * inflow_ratio r (x_tip x) Wa Wt * x_tip x / (PI * x_blades x * r)).
  pose proof (tip_loss_pos r (x_tip x) Wa Wt (x_blades x) HR HB) as F. set (FF := tip_loss _ _ _ _ _) in *.
  assert (0 < sqrt (1 + q * q)) as S by (apply sqrt_lt_R0; nra). pose proof (speed_pos Wa Wt WA) as W. set (w := speed Wa Wt) in *.
  assert (0 < 4 * PI * r / x_blades x) as K by (apply Rdiv_lt_0_compat; [pose proof PI_RGT_0; apply Rmult_lt_0_compat; lra|assumption]).
  set (top := (Ut - Wt) * (4 * PI * r / x_blades x) * FF * sqrt (1 + q * q)).
  assert (0 < top) as T0 by (apply Rmult_lt_0_compat; [apply Rmult_lt_0_compat; [now apply Rmult_lt_0_compat|assumption]|assumption]).
  assert (0 < / 2 * w * ch) as D by (apply Rmult_lt_0_compat; [lra|assumption]).
  unfold nonzero. destruct (Req_EM_T (top / (/ 2 * w * ch)) 0) as [Z|Z].
  - exfalso. assert (0 < top / (/ 2 * w * ch)) by (now apply Rdiv_lt_0_compat). lra.
  - field. lra.
Qed.
Definition ex_air : air := {| a_rho := 12 / 10; a_nu := 15 / 1000000; a_sound := 340; a_temp := 288 |}.
Definition ex_case : case := {| c_air := ex_air; c_omega := 4; c_pitch := 0; c_throttle := 1 |}.
Definition ex_bare : rotor := {| x_blades := 2; x_tip := 2; x_hub := 1 / 2; x_stations := []; x_na := 24 |}.
Definition ex_rotor : rotor := {| x_blades := 2; x_tip := 2; x_hub := 1 / 2; x_stations := [tuned ex_case ex_bare 3 1 (1 / 10); tuned ex_case ex_bare 3 (3 / 2) (1 / 10)]; x_na := 24 |}.
Example C110_no_more_out_than_in_ex : exists rep, spin_axial ex_case ex_rotor (V3 3 0 0) [PI / 2; PI / 2] = Ok rep /\
  sound_air (c_air ex_case) /\ sound_rotor ex_rotor /\ Forall (fun s => drags (s_section s)) (x_stations ex_rotor) /\ settled ex_case ex_rotor (axial_speed 3) [PI / 2; PI / 2].
Proof.
  eexists. split; [reflexivity|]. split; [constructor; cbn; lra|]. split; [|split].
  - constructor; cbn; try lra. repeat constructor; cbn; lra.
  - apply Forall_forall. intros s [<-|[<-|[]]] alpha Ma Re HRe; cbn; lra.
  - assert (axial_speed 3 = 3) as -> by (unfold axial_speed; destruct (Req_EM_T 3 0); [lra|reflexivity]).
    constructor; [|constructor; [|constructor]].
    + exact (tuned_settled ex_case ex_bare 3 1 (1 / 10) ltac:(lra) ltac:(cbn; lra) ltac:(cbn; lra) ltac:(lra) ltac:(cbn; lra)).
    + exact (tuned_settled ex_case ex_bare 3 (3 / 2) (1 / 10) ltac:(lra) ltac:(cbn; lra) ltac:(cbn; lra) ltac:(lra) ltac:(cbn; lra)).
Qed.

(** ** C111: what a rotor reports *)
Lemma pow4_pos : forall D, 0 < D -> 0 < D * D * D * D.
Proof. intros D H. assert (0 < D * D) as Q by nra. replace (D * D * D * D) with ((D * D) * (D * D)) by ring. nra. Qed.
(** running: torque, thrust and power coefficients agree with the forces; power coefficient = 2 pi torque coefficient *)
Theorem C111_coefficients : forall c x V l, 0 < c_throttle c -> 0 < c_omega c -> 0 < a_rho (c_air c) -> 0 < x_tip x ->
  let rep := report_of c x V l in let n := c_omega c / (2 * PI) in let D := 2 * x_tip x in
  exists ct cq cp, o_Ct rep = Fin ct /\ o_Cq rep = Fin cq /\ o_Cp rep = Fin cp /\ 0 <= ct /\ 0 <= cq /\ cp = 2 * PI * cq /\
  (0 <= o_thrust rep -> o_thrust rep = ct * (a_rho (c_air c) * n ^ 2 * D ^ 4)) /\ (o_thrust rep < 0 -> ct = 0) /\
  (0 <= o_torque rep -> o_torque rep = cq * (a_rho (c_air c) * n ^ 2 * D ^ 5)) /\ (o_torque rep < 0 -> cq = 0) /\
  (0 <= o_power rep -> o_power rep = cp * (a_rho (c_air c) * n ^ 3 * D ^ 5)) /\
  o_thrust rep = x_blades x * l_thrust l /\ o_torque rep = x_blades x * l_torque l /\ o_power rep = c_omega c * o_torque rep /\
  (x_blades x <> 0 -> o_thrust_per_blade rep = l_thrust l /\ o_torque_per_blade rep = l_torque l).
Proof.
  intros c x V l HT HO HR HX rep n D. pose proof PI_RGT_0 as PP.
  assert (0 < n) as N by (apply Rdiv_lt_0_compat; lra). assert (0 < D) as D0 by (unfold D; lra).
  set (rho := a_rho (c_air c)) in *.
  assert (0 < rho * (n * n) * (D * D * D * D)) as K4. { apply Rmult_lt_0_compat; [apply Rmult_lt_0_compat; [assumption|nra]|]. now apply pow4_pos. }
  assert (0 < rho * (n * n) * (D * D * D * D * D)) as K5. { replace (rho * (n * n) * (D * D * D * D * D)) with (rho * (n * n) * (D * D * D * D) * D) by ring. now apply Rmult_lt_0_compat. }
  assert (0 < rho * (n * n * n) * (D * D * D * D * D)) as K6. { replace (rho * (n * n * n) * (D * D * D * D * D)) with (rho * (n * n) * (D * D * D * D * D) * n) by ring. now apply Rmult_lt_0_compat. }
  unfold rep, report_of. cbv zeta. cbn [o_thrust o_torque o_power o_Ct o_Cq o_Cp o_thrust_per_blade o_torque_per_blade]. fold n D rho.
  unfold at_rest. destruct (Req_EM_T (c_omega c) 0); [lra|]. lcase (c_omega c) 0; [lra|]. lcase 0 (c_throttle c); [|lra]. cbn [negb].
  rewrite !quot_fin by lra. unfold clamped. set (th := x_blades x * l_thrust l). set (q := x_blades x * l_torque l).
  exists (if Rltb (th / (rho * (n * n) * (D * D * D * D))) 0 then 0 else th / (rho * (n * n) * (D * D * D * D))).
  exists (if Rltb (q / (rho * (n * n) * (D * D * D * D * D))) 0 then 0 else q / (rho * (n * n) * (D * D * D * D * D))).
  exists (if Rltb (c_omega c * q / (rho * (n * n * n) * (D * D * D * D * D))) 0 then 0 else c_omega c * q / (rho * (n * n * n) * (D * D * D * D * D))).
  assert (forall a b, 0 < b -> (0 <= a -> 0 <= a / b) /\ (a < 0 -> a / b < 0) /\ (a / b < 0 -> a < 0)) as SG.
  { intros a b B. assert (0 < / b) as IB by (now apply Rinv_0_lt_compat). unfold Rdiv. split; [intros; apply Rmult_le_pos; lra|]. split; [intros; nra|]. intros Q.
    replace a with (a * / b * b) by (field; lra). nra. }
  assert (c_omega c * q / (rho * (n * n * n) * (D * D * D * D * D)) = 2 * PI * (q / (rho * (n * n) * (D * D * D * D * D)))) as CP.
  { unfold n. field. repeat split; try lra. }
  rewrite CP. set (cq := q / (rho * (n * n) * (D * D * D * D * D))) in *. set (ct := th / (rho * (n * n) * (D * D * D * D))) in *.
  destruct (SG th _ K4) as (T1 & T2 & T3). fold ct in T1, T2, T3. destruct (SG q _ K5) as (Q1 & Q2 & Q3). fold cq in Q1, Q2, Q3.
  assert (th = ct * (rho * (n * n) * (D * D * D * D))) as ET by (unfold ct; field; lra). assert (q = cq * (rho * (n * n) * (D * D * D * D * D))) as EQ by (unfold cq; field; lra).
  assert (c_omega c = 2 * PI * n) as EO by (unfold n; field; lra).
  split; [lcase ct 0; reflexivity|]. split; [lcase cq 0; reflexivity|]. split; [lcase (2 * PI * cq) 0; reflexivity|].
  split; [lcase ct 0; lra|]. split; [lcase cq 0; lra|]. split; [lcase cq 0; lcase (2 * PI * cq) 0; nra|].
  split; [intros P; lcase ct 0; [specialize (T3 H1); lra|rewrite ET at 1; ring]|].
  split; [intros P; specialize (T2 P); lcase ct 0; lra|].
  split; [intros P; lcase cq 0; [specialize (Q3 H1); lra|rewrite EQ at 1; ring]|].
  split; [intros P; specialize (Q2 P); lcase cq 0; lra|].
  split.
  { intros P. assert (0 <= q) as Q0. { destruct (Rle_dec 0 q) as [|NQ]; [assumption|]. exfalso. assert (q < 0) by lra. nra. } specialize (Q1 Q0).
    lcase (2 * PI * cq) 0; [nra|]. rewrite EQ at 1. rewrite EO. ring. }
  split; [reflexivity|]. split; [reflexivity|]. split; [reflexivity|]. intros NB. unfold th, q. split; field; assumption.
Qed.
Example C111_coefficients_ex : 0 < c_throttle ex_case /\ 0 < c_omega ex_case /\ 0 < a_rho (c_air ex_case) /\ 0 < x_tip ex_rotor.
Proof. cbn. lra. Qed.
(** without throttle, or at rest, no force, torque or power; at rest the coefficients of thrust and power and the efficiency are zero too *)
Theorem C111_off : forall c x V l, c_throttle c <= 0 \/ c_omega c = 0 ->
  let rep := report_of c x V l in o_thrust rep = 0 /\ o_torque rep = 0 /\ o_power rep = 0 /\ o_drag rep = 0 /\
  (c_omega c = 0 -> o_Ct rep = Fin 0 /\ o_Cp rep = Fin 0 /\ o_etap rep = Fin 0).
Proof.
  intros c x V l H rep. unfold rep, report_of. cbv zeta. cbn [o_thrust o_torque o_power o_drag o_Ct o_Cp o_etap]. unfold at_rest.
  destruct (Req_EM_T (c_omega c) 0) as [E|E]; [repeat split|]. destruct H as [H|H]; [|contradiction].
  lcase 0 (c_throttle c); [lra|]. cbn [negb]. repeat split; try contradiction. lcase (c_omega c) 0; ring.
Qed.
(** the torque coefficient and figure of merit of a rotor at rest are not numbers, unless the torque is negative *)
Theorem C111_at_rest_refuted : forall c x V l, c_omega c = 0 -> 0 <= x_blades x * l_torque l -> forall v, o_Cq (report_of c x V l) <> Fin v /\ o_FoM (report_of c x V l) <> Fin v.
Proof.
  intros c x V l H Q v. unfold report_of. cbv zeta. cbn [o_Cq o_FoM]. rewrite H.
  replace (a_rho (c_air c) * (0 / (2 * PI) * (0 / (2 * PI))) * (2 * x_tip x * (2 * x_tip x) * (2 * x_tip x) * (2 * x_tip x) * (2 * x_tip x))) with 0 by (field; apply PI_neq0).
  rewrite quot_zero, Rmult_0_l. split.
  - lcase 0 (x_blades x * l_torque l); [discriminate|]. lcase (x_blades x * l_torque l) 0; [lra|]. discriminate.
  - match goal with |- (if Rltb ?a 0 then _ else _) <> _ => lcase a 0 end; [discriminate|]. rewrite quot_zero.
    match goal with |- (if Rltb 0 ?a then _ else _) <> _ => lcase 0 a end; [discriminate|].
    match goal with |- (if Rltb ?a 0 then _ else _) <> _ => lcase a 0 end; discriminate.
Qed.
(** closing the throttle leaves coefficients and efficiency as they were *)
Theorem C111_throttle_off_refuted : forall c c' x V l, c_air c' = c_air c -> c_omega c' = c_omega c ->
  o_Ct (report_of c' x V l) = o_Ct (report_of c x V l) /\ o_Cp (report_of c' x V l) = o_Cp (report_of c x V l) /\ o_etap (report_of c' x V l) = o_etap (report_of c x V l).
Proof. intros c c' x V l A O. unfold report_of. cbv zeta. cbn [o_Ct o_Cp o_etap]. rewrite A, O. repeat split. Qed.
(** turning backwards changes the sign of the thrust after its coefficient is taken: the two never agree *)
Theorem C111_backwards_refuted : forall c x V l, 0 < c_throttle c -> c_omega c < 0 -> 0 < a_rho (c_air c) -> 0 < x_tip x -> 0 < x_blades x * l_thrust l ->
  let rep := report_of c x V l in exists ct, o_Ct rep = Fin ct /\ 0 < ct /\ o_thrust rep < 0.
Proof.
  intros c x V l HT HO HR HX HL rep. unfold rep, report_of. cbv zeta. cbn [o_Ct o_thrust]. unfold at_rest.
  destruct (Req_EM_T (c_omega c) 0) as [Z|Z]; [lra|]. lcase (c_omega c) 0; [|lra]. lcase 0 (c_throttle c); [|lra]. cbn [negb].
  set (n := c_omega c / (2 * PI)). set (D := 2 * x_tip x).
  assert (n < 0) as N. { unfold n, Rdiv. pose proof PI_RGT_0. assert (0 < / (2 * PI)) by (apply Rinv_0_lt_compat; lra). nra. }
  assert (0 < n * n) as NN by nra. assert (0 < D) as D0 by (unfold D; lra).
  assert (0 < a_rho (c_air c) * (n * n) * (D * D * D * D)) as K. { apply Rmult_lt_0_compat; [now apply Rmult_lt_0_compat|]. now apply pow4_pos. }
  rewrite quot_fin by lra. unfold clamped. assert (0 < x_blades x * l_thrust l / (a_rho (c_air c) * (n * n) * (D * D * D * D))) as P by (now apply Rdiv_lt_0_compat).
  match goal with |- context [Rltb ?a 0] => lcase a 0 end; [lra|]. eexists. split; [reflexivity|]. split; [exact P|lra].
Qed.
(** in axial flow there is no in-plane force, and around the disc none either when lift and drag coefficients do not vary: its dynamic
    pressure is taken without the crosswind *)
Theorem C111_in_plane_force : forall c x, (2 <= x_na x)%nat ->
  (forall V es, l_drag (axial_loads c x es) = 0 /\ o_drag (report_of c x V (axial_loads c x es)) = 0) /\
  (forall w s dr row cl cd, length row = x_na x ->
     (forall p, In p (combine (azimuths (x_na x)) row) -> e_cl (disc_element c x w s dr p) = cl /\ e_cd (disc_element c x w s dr p) = cd) ->
     l_drag (disc_loads c [(s, dr, map (fun p => (fst p, disc_element c x w s dr p)) (combine (azimuths (x_na x)) row))]) = 0).
Proof.
  intros c x H. split.
  - intros V es. pose proof (axial_drag c x es H) as E. split; [exact E|]. unfold report_of. cbv zeta. cbn [o_drag]. rewrite E, Rmult_0_r.
    destruct (Req_EM_T (c_omega c) 0); [reflexivity|]. destruct (negb _); reflexivity.
  - intros w s dr row cl cd L E. unfold disc_loads. cbn [l_drag map fst snd]. unfold total. cbn [fold_right].
    rewrite (disc_drag_same c x w s dr row cl cd H L E). ring.
Qed.
Example C111_in_plane_force_ex : (2 <= x_na ex_rotor)%nat /\
  let s := tuned ex_case ex_bare 3 1 (1 / 10) in let row := repeat (PI / 2) 24 in
  length row = x_na ex_rotor /\ exists cl cd, forall p, In p (combine (azimuths (x_na ex_rotor)) row) ->
    e_cl (disc_element ex_case ex_rotor (V3 3 0 0) s 1 p) = cl /\ e_cd (disc_element ex_case ex_rotor (V3 3 0 0) s 1 p) = cd.
Proof.
  split; [cbn; lia|]. cbv zeta. split; [reflexivity|]. eexists. eexists. intros [p psi] I. apply in_combine_r in I. apply repeat_spec in I. subst psi.
  assert (crosswind (V3 3 0 0) p = (0, 0)) as CW.
  { unfold crosswind. cbn [vy vz]. rewrite Rabs_R0. lcase (1 / 1000) 0; [lra|]. reflexivity. }
  unfold disc_element. cbn [fst snd]. rewrite CW. cbn [fst snd]. split; reflexivity.
Qed.
(** the analysis around the disc without crosswind is the axial one; the crosswind adds nothing on average *)
Theorem C111_disc_and_axial_agree : forall c x v wake, (1 <= x_na x)%nat -> Rabs (vy v) <= 1 / 1000 -> Rabs (vz v) <= 1 / 1000 ->
  spin_disc c x v (map (fun psi => repeat psi (x_na x)) wake) = spin_axial c x v wake.
Proof. exact spin_disc_axial. Qed.
Theorem C111_crosswind : forall na w, (2 <= na)%nat ->
  mean (map (fun psi => fst (crosswind w psi)) (azimuths na)) = 0 /\ mean (map (fun psi => snd (crosswind w psi)) (azimuths na)) = 0.
Proof. exact crosswind_mean. Qed.
(** the axial analysis does not see the wind across the disc *)
Theorem C111_axial_ignores_crosswind_refuted : forall c x v v' wake, vx v = vx v' -> spin_axial c x v wake = spin_axial c x v' wake.
Proof. intros c x v v' wake H. unfold spin_axial. rewrite H. reflexivity. Qed.

(** ** C112: rotor axes *)
(** for all mounting angles and tilts the axes are turned without distortion: speed and thrust keep their magnitude, and axial speed times
    thrust is the product of the velocity with the thrust vector *)
Theorem C112_axes : forall angles y,
  rotation (mapply (body_to_prop_vel angles y)) /\ inverse (mapply (body_to_prop_vel angles y)) (mapply (prop_vel_to_body angles y)) /\
  (forall T, norm (thrust_vector angles y T) = Rabs T) /\
  (forall b2i v, proper b2i -> norm (rotor_wind b2i angles y v) = norm v /\
     forall T, vx (rotor_wind b2i angles y v) * T = vdot (mapply (mtranspose b2i) v) (thrust_vector angles y T)).
Proof.
  intros angles y. pose proof (body_to_prop_proper angles y) as P. pose proof (proper_rotation _ P) as RR. pose proof (proper_transpose _ P) as PT.
  split; [assumption|]. split.
  { unfold prop_vel_to_body. split; intros a; [now apply proper_inverse|]. pose proof (proper_inverse _ a PT) as Q. rewrite mtranspose_twice in Q. exact Q. }
  split.
  - intros T. unfold thrust_vector, norm. rewrite mtranspose_twice, (rot_inner _ RR). unfold vdot. cbn [vx vy vz].
    replace (T * T + 0 * 0 + 0 * 0) with (Rsqr T) by (unfold Rsqr; ring). apply sqrt_Rsqr_abs.
  - intros b2i v PB. split.
    + unfold rotor_wind, norm. rewrite (rot_inner _ (proper_rotation _ PT)), (rot_inner _ (proper_rotation _ (proper_transpose _ PB))). reflexivity.
    + intros T. unfold thrust_vector, rotor_wind. rewrite mtranspose_twice. rewrite <- (mtranspose_twice (body_to_prop_vel angles y)) at 2. rewrite <- vdot_transpose.
      unfold vdot. cbn [vx vy vz]. ring.
Qed.
(** tilting: no angles, thrust forward; tilt a, thrust turned by a from forward to up (up is minus z) *)
Theorem C112_tilt : forall a T, thrust_vector (V3 0 0 0) a T = V3 (T * cos a) 0 (- (T * sin a)).
Proof.
  intros a T. unfold thrust_vector. rewrite mtranspose_twice, body_to_prop_y. unfold about_y. apply v3_ext; repeat (progress (cbn; unfold vdot)); ring.
Qed.
Example C112_tilt_ex : thrust_vector (V3 0 0 0) 0 7 = V3 7 0 0 /\ thrust_vector (V3 0 0 0) (PI / 2) 7 = V3 0 0 (-7).
Proof. rewrite !C112_tilt, cos_0, sin_0, cos_PI2, sin_PI2. split; apply v3_ext; cbn; ring. Qed.
(** the angles named Euler angles are the components of one rotation vector: turning about two axes is not one turn after the other *)
Theorem C112_euler_angles_refuted : exists a b, rotvec (V3 a b 0) <> mprod (rotvec (V3 a 0 0)) (rotvec (V3 0 b 0)) /\ rotvec (V3 a b 0) <> mprod (rotvec (V3 0 b 0)) (rotvec (V3 a 0 0)).
Proof.
  exists (3 / 5 * PI), (4 / 5 * PI). pose proof PI_RGT_0 as P.
  assert (vz (row2 (rotvec (V3 (3 / 5 * PI) (4 / 5 * PI) 0))) = -1) as L.
  { unfold rotvec, vdot. cbn [vx vy vz]. replace (3 / 5 * PI * (3 / 5 * PI) + 4 / 5 * PI * (4 / 5 * PI) + 0 * 0) with (PI * PI) by field. rewrite sqrt_square by lra.
    destruct (Req_EM_T PI 0); [lra|]. cbn. rewrite cos_PI. field. lra. }
  assert (rotvec (V3 (3 / 5 * PI) 0 0) = M3 (V3 1 0 0) (V3 0 (cos (3 / 5 * PI)) (- sin (3 / 5 * PI))) (V3 0 (sin (3 / 5 * PI)) (cos (3 / 5 * PI)))) as X.
  { unfold rotvec, vdot. cbn [vx vy vz]. replace (3 / 5 * PI * (3 / 5 * PI) + 0 * 0 + 0 * 0) with ((3 / 5 * PI) * (3 / 5 * PI)) by ring. rewrite sqrt_square by lra.
    destruct (Req_EM_T (3 / 5 * PI) 0); [lra|]. apply m3_ext; apply v3_ext; cbn; field; lra. }
  assert (- 1 < cos (3 / 5 * PI) < 0) as [C1 C2].
  { split; [rewrite <- cos_PI; apply cos_decreasing_1; lra|]. apply cos_lt_0; lra. }
  assert (- 1 <= cos (4 / 5 * PI) <= 1) as C by apply COS_bound.
  rewrite X, rotvec_y. unfold about_y. split; intros E; rewrite E in L; revert L; repeat (progress (cbn; unfold vdot)); intros L; nra.
Qed.

(** ** C113: tip loss *)
(** the factor is at least zero and below one, zero exactly at the tip, larger inboard, with more blades and with less inflow; the inflow ratio
    used is always positive *)
Theorem C113_tip_loss : forall Rt B, 0 < Rt -> 0 < B ->
  (forall r Wa Wt, 0 < inflow_ratio r Rt Wa Wt) /\
  (forall r Wa Wt, 0 < r <= Rt -> 0 <= tip_loss r Rt Wa Wt B < 1) /\
  (forall r Wa Wt, 0 < r <= Rt -> (tip_loss r Rt Wa Wt B = 0 <-> r = Rt)) /\
  (forall r r' Wa Wt, 0 < r -> r < r' -> r' <= Rt -> 0 < Wa -> 0 < Wt -> tip_loss r' Rt Wa Wt B < tip_loss r Rt Wa Wt B) /\
  (forall r Wa Wt B', 0 < r < Rt -> B < B' -> tip_loss r Rt Wa Wt B < tip_loss r Rt Wa Wt B') /\
  (forall r Wa Wa' Wt, 0 < r < Rt -> 0 < Wa -> Wa < Wa' -> 0 < Wt -> tip_loss r Rt Wa' Wt B < tip_loss r Rt Wa Wt B).
Proof.
  intros Rt B HR HB. split; [intros; apply inflow_pos|]. split; [intros; now apply tip_loss_range|]. split.
  { intros r Wa Wt [H1 [H2|H2]].
    - pose proof (tip_loss_pos r Rt Wa Wt B (conj H1 H2) HB). split; intros; lra.
    - subst r. split; [reflexivity|]. intros _. now apply tip_loss_tip. }
  split; [intros; now apply tip_loss_falls|]. split; [intros; now apply tip_loss_blades|]. intros; now apply tip_loss_inflow.
Qed.
(** reversed inflow counts as almost none: the factor jumps to nearly one where the inflow changes sign *)
Theorem C113_reversed_inflow : forall r Rt Wa Wt B, 0 < r -> 0 < Rt -> Wa <= 0 -> 0 < Wt -> inflow_ratio r Rt Wa Wt = / 10 ^ 12 /\ tip_loss r Rt Wa Wt B = prandtl (B / 2 * (Rt / r - 1) * 10 ^ 12).
Proof.
  intros r Rt Wa Wt B H1 H2 H3 H4. assert (inflow_ratio r Rt Wa Wt = / 10 ^ 12) as E.
  { unfold inflow_ratio. lcase 0 (r * Wa / (Rt * Wt)); [|reflexivity]. assert (r * Wa / (Rt * Wt) <= 0); [|lra]. unfold Rdiv.
    assert (0 < / (Rt * Wt)) by (apply Rinv_0_lt_compat; now apply Rmult_lt_0_compat). assert (r * Wa <= 0) by nra. nra. }
  split; [exact E|]. rewrite tip_loss_prandtl, E. f_equal. unfold Rdiv. rewrite Rinv_inv. reflexivity.
Qed.

(** ** C114: blade sections *)
(** no section reports zero lift or, with the built-in curves, drag that is not positive *)
Theorem C114_never_zero : forall s alpha Ma Re, fst (section_coefficients s alpha Ma Re) <> 0 /\ (forall tc, s = Formula tc -> 0 < Re -> 0 < snd (section_coefficients s alpha Ma Re)).
Proof.
  intros s alpha Ma Re. split.
  - destruct s as [tc|l loc]; cbn; [apply nonzero_not|]. destruct (nth_error l loc) as [[f g]|]; apply nonzero_not.
  - intros tc -> HR. cbn. now apply formula_drag_pos.
Qed.
Lemma formula_drags : forall tc, drags (Formula tc).
Proof. intros tc alpha Ma Re H. left. now apply (proj2 (C114_never_zero (Formula tc) alpha Ma Re) tc). Qed.
(** below stall the slope is 2 pi times the compressibility correction, above it the stall lift; the stall lift is positive; at and beyond a right
    angle there is almost no lift and drag 2 *)
Theorem C114_lift_curve : forall tc Ma Re, 0 < Re ->
  0 < stall_lift tc Re /\
  (forall alpha, alpha < PI / 2 -> 2 * PI * alpha <= stall_lift tc Re -> formula_lift tc alpha Ma Re = karman_tsien Ma (2 * PI * alpha)) /\
  (forall alpha, alpha < PI / 2 -> stall_lift tc Re <= 2 * PI * alpha -> formula_lift tc alpha Ma Re = karman_tsien Ma (stall_lift tc Re)) /\
  (forall alpha, PI / 2 <= alpha -> section_coefficients (Formula tc) alpha Ma Re = (1 / 1000000, 2)).
Proof.
  intros tc Ma Re H. split; [apply (stall_pos tc Re H)|]. split; [|split].
  - intros alpha HA HC. unfold formula_lift. cbv zeta. lcase (stall_lift tc Re) (2 * PI * alpha); [lra|]. lcase alpha (PI / 2); [|lra]. reflexivity.
  - intros alpha HA HC. unfold formula_lift. cbv zeta. lcase alpha (PI / 2); [|lra]. lcase (stall_lift tc Re) (2 * PI * alpha); [reflexivity|]. f_equal. lra.
  - intros alpha HA. cbn. unfold formula_lift, formula_drag. cbv zeta. lcase alpha (PI / 2); [lra|]. rewrite karman_off by lra. unfold nonzero. destruct (Req_EM_T 0 0); [reflexivity|congruence].
Qed.
(** the correction is exact in incompressible flow, keeps the order of lifts, and pulls every positive lift towards 2 *)
Theorem C114_karman_tsien : forall Ma cl, 0 <= Ma < 1 -> 0 < cl ->
  (Ma = 0 -> karman_tsien Ma cl = cl) /\ (forall cl', cl < cl' -> karman_tsien Ma cl < karman_tsien Ma cl') /\
  (cl <= 2 -> cl <= karman_tsien Ma cl <= 2) /\ (2 <= cl -> 2 <= karman_tsien Ma cl <= cl).
Proof.
  intros Ma cl [H L] C. split.
  { intros ->. destruct (karman_eq 0 cl (Rle_refl 0) L C) as [-> B]. replace (1 - 0 * 0) with 1 by ring. rewrite sqrt_1. field. }
  split; [intros; now apply karman_rises|]. now apply karman_between.
Qed.
(** near the speed of sound every positive lift becomes 2, and from there on it is not corrected: a jump *)
Theorem C114_sonic_jump_refuted : forall cl eps, 0 < cl -> 0 < eps -> exists M0, 0 <= M0 < 1 /\ (forall Ma, M0 <= Ma < 1 -> Rabs (karman_tsien Ma cl - 2) <= eps) /\ (forall Ma, 1 <= Ma -> karman_tsien Ma cl = cl).
Proof.
  intros cl eps C E.
  set (b0 := Rmin 1 (Rmin (cl / 4 * eps / (Rabs (cl - 2) + 1)) (1 / 2))).
  assert (0 < Rabs (cl - 2) + 1) as A1 by (pose proof (Rabs_pos (cl - 2)); lra).
  assert (0 < cl / 4 * eps / (Rabs (cl - 2) + 1)) as A2 by (apply Rdiv_lt_0_compat; [nra|assumption]).
  assert (0 < b0 <= 1 / 2) as [B0 B1]. { unfold b0. split; [repeat apply Rmin_glb_lt; lra|]. eapply Rle_trans; [apply Rmin_r|]. apply Rmin_r. }
  assert (b0 <= cl / 4 * eps / (Rabs (cl - 2) + 1)) as B2. { unfold b0. eapply Rle_trans; [apply Rmin_r|]. apply Rmin_l. }
  exists (sqrt (1 - b0 * b0)). split; [split; [apply sqrt_pos|]|].
  { rewrite <- sqrt_1 at 2. apply sqrt_lt_1; nra. }
  split; [|intros; apply karman_off; lra].
  intros Ma [H1 H2]. assert (0 <= Ma) as M0 by (pose proof (sqrt_pos (1 - b0 * b0)); lra).
  assert (1 - b0 * b0 <= Ma * Ma) as MM. { rewrite <- (sqrt_sqrt (1 - b0 * b0)) by nra. pose proof (sqrt_pos (1 - b0 * b0)). nra. }
  destruct (karman_eq Ma cl M0 H2 C) as [-> B]. set (b := sqrt (1 - Ma * Ma)) in *.
  assert (b <= b0) as BB. { unfold b. apply Rle_trans with (sqrt (b0 * b0)); [apply sqrt_le_1; nra|rewrite sqrt_square; lra]. }
  pose proof (blend_range b cl B C) as P. set (D := b * 1 + (1 - b) * (cl / 2)) in *.
  assert (cl / 4 <= D) as D4 by (unfold D; nra).
  replace (cl / D - 2) with (b * (cl - 2) / D) by (unfold D in *; field; lra).
  unfold Rdiv. rewrite Rabs_mult, Rabs_inv, Rabs_mult, (Rabs_right b), (Rabs_right D) by lra. apply frac_le; [assumption|].
  pose proof (Rabs_pos (cl - 2)) as AP.
  assert (b * (Rabs (cl - 2) + 1) <= cl / 4 * eps) as Q.
  { apply Rle_trans with (b0 * (Rabs (cl - 2) + 1)); [apply Rmult_le_compat_r; lra|]. apply Rle_trans with (cl / 4 * eps / (Rabs (cl - 2) + 1) * (Rabs (cl - 2) + 1)); [apply Rmult_le_compat_r; lra|].
    right. field. lra. }
  nra.
Qed.
(** there is no stall at negative incidence *)
Theorem C114_negative_stall_refuted : forall tc Ma Re alpha, 0 < Re -> alpha < 0 -> formula_lift tc alpha Ma Re = 2 * PI * alpha.
Proof.
  intros tc Ma Re alpha H A. pose proof PI_RGT_0. pose proof (stall_pos tc Re H) as [_ S]. assert (2 * PI * alpha < 0) as N by nra.
  rewrite (proj1 (proj2 (C114_lift_curve tc Ma Re H))) by lra. apply karman_off. lra.
Qed.
(** heating of the boundary layer lowers drag with Mach number, never below zero, and does nothing at rest *)
Theorem C114_drag_correction : forall T cd, 0 < T -> 0 < cd ->
  compressible_drag cd 0 T = cd /\ (forall Ma, 0 < compressible_drag cd Ma T <= cd) /\ (forall Ma Ma', 0 <= Ma -> Ma < Ma' -> compressible_drag cd Ma' T < compressible_drag cd Ma T).
Proof.
  intros T cd HT HC. split; [|split].
  - rewrite compressible_factor. replace (heating 0) with 1 by (unfold heating; lra). rewrite drag_factor_1 by assumption. ring.
  - intros Ma. rewrite compressible_factor. pose proof (drag_factor_range Ma T HT). nra.
  - intros Ma Ma' H L. rewrite !compressible_factor. pose proof (drag_factor_falls _ _ T HT (heating_pos Ma) (heating_rises _ _ H L)). nra.
Qed.
(** a station whose airfoil number names no airfoil has no drag and hardly any lift *)
Theorem C114_unknown_airfoil : forall l loc alpha Ma Re, (length l <= loc)%nat -> section_coefficients (Polars l loc) alpha Ma Re = (1 / 1000000, 0).
Proof.
  intros l loc alpha Ma Re H. cbn. apply nth_error_None in H. rewrite H. unfold nonzero. destruct (Req_EM_T 0 0); [reflexivity|congruence].
Qed.

(** ** C115: the wake behind the disc *)
Lemma map2_pairs_length : forall (f : R -> R * R -> R) a b, length (map2 f a b) = Nat.min (length a) (length b).
Proof. intros f a. induction a as [|x a IH]; intros [|y b]; cbn; auto. Qed.
(** induced velocity grows from nothing far ahead through its value at the disc to twice that far behind *)
Theorem C115_development : forall Rt, 0 < Rt ->
  development 0 Rt = 1 /\ (forall s, 0 < development s Rt < 2) /\ (forall s s', s < s' -> development s Rt < development s' Rt) /\
  (forall s, development s Rt + development (- s) Rt = 2).
Proof.
  intros Rt H. split; [apply development_disc|]. split; [intros; now apply development_range|]. split; [intros; now apply development_rises|]. intros; now apply development_mirror.
Qed.
(** the wake keeps its order, each annulus passes the same volume as at the disc, it contracts behind the disc, to no less than half the area *)
Theorem C115_contraction : forall V s Rt hub l, 0 < V -> 0 < Rt -> 0 <= hub -> Forall (fun p => 0 < fst p /\ 0 <= snd p) l -> rising (map fst l) ->
  let Kd := development s Rt in let w := wake_radii V Kd hub l in
  length w = length l /\ length (wake_contraction V s Rt hub l) = length l /\
  (forall j, (j < length l)%nat -> nth j (wake_contraction V s Rt hub l) 0 = nth j w 0 / fst (nth j l (0, 0))) /\
  (forall j, (S j < length l)%nat ->
     nth j w 0 < nth (S j) w 0 /\
     (nth (S j) w 0 ^ 2 - nth j w 0 ^ 2) * (V + Kd * ((snd (nth j l (0, 0)) + snd (nth (S j) l (0, 0))) / 2)) =
     (fst (nth (S j) l (0, 0)) ^ 2 - fst (nth j l (0, 0)) ^ 2) * (V + (snd (nth j l (0, 0)) + snd (nth (S j) l (0, 0))) / 2)) /\
  (0 <= s -> hub <= fst (hd (0, 0) l) -> Forall2 Rle w (map fst l)) /\
  (s <= 0 -> fst (hd (0, 0) l) <= hub -> Forall2 Rle (map fst l) w) /\
  (fst (hd (0, 0) l) <= hub -> Forall2 (fun r rp => r * r <= 2 * (rp * rp)) (map fst l) w).
Proof.
  intros V s Rt hub l HV HR HH F RI Kd w. pose proof (development_range s Rt HR) as K. fold Kd in K.
  assert (length w = length l) as L by apply wake_radii_length.
  split; [exact L|]. split; [unfold wake_contraction; fold Kd; fold w; rewrite map2_pairs_length, L; apply Nat.min_id|]. split.
  { intros j J. unfold wake_contraction. fold Kd. fold w. revert j J. clearbody w. clear - L. revert l L. induction w as [|a w IH]; intros [|b l] L j J; cbn in *; try lia.
    destruct j; [reflexivity|]. apply IH; lia. }
  split; [|split; [|split]].
  - intros j J. destruct (wake_squares V Kd l hub HV (proj1 K) HH F RI j J) as [Q P]. fold w in Q, P. split; [apply P|].
    assert (forall p, In p l -> 0 <= snd p) as SN by (rewrite Forall_forall in F; intros p I; apply (F p I)).
    assert (0 <= snd (nth j l (0, 0))) as N1 by (apply SN, nth_In; lia). assert (0 <= snd (nth (S j) l (0, 0))) as N2 by (apply SN, nth_In; lia).
    destruct (contraction_pos V Kd _ _ HV (proj1 K) N1 N2) as [_ D].
    replace (nth (S j) w 0 ^ 2 - nth j w 0 ^ 2) with (nth (S j) w 0 * nth (S j) w 0 - nth j w 0 * nth j w 0) by ring. rewrite Q. unfold contraction. field. lra.
  - intros HS HL. apply wake_below; try assumption. unfold Kd. destruct HS as [HS|HS]; [|rewrite <- HS, development_disc; lra].
    rewrite <- (development_disc Rt). left. now apply development_rises.
  - intros HS HL. apply wake_above; try assumption. split; [lra|]. unfold Kd. destruct HS as [HS|HS]; [|rewrite HS, development_disc; lra].
    rewrite <- (development_disc Rt). left. now apply development_rises.
  - intros HL. apply wake_half; try assumption. destruct l as [|[r0 v0] l]; cbn [hd fst] in *; [nra|]. inversion F as [|? ? [F1 _] _]. subst. cbn in F1. nra.
Qed.
Example C115_contraction_ex : let l := [(1 / 2, 3); (1, 4); (2, 1)] in
  Forall (fun p => 0 < fst p /\ 0 <= snd p) l /\ rising (map fst l) /\ fst (hd (0, 0) l) = 1 / 2.
Proof. cbv zeta. split; [|split; [cbn; lra|reflexivity]]. repeat constructor; cbn; lra. Qed.
(** behind a propeller, at the spanwise places of its stations, the wing sees the stations' induced velocities: axial alike on both sides,
    vertical opposite *)
Theorem C115_slipstream : forall p j xc, length (w_va p) = length (w_r p) -> length (w_vt p) = length (w_r p) -> rising (w_r p) -> 0 < hd 0 (w_r p) ->
  (0 < j)%nat -> (S j < length (w_r p))%nat -> let k := development (xc - w_x p) (w_tip p) in
  slipstream p xc (w_y p + nth j (w_r p) 0) = Some (k * nth j (w_va p) 0, 0, k * (nth j (w_vt p) 0 * w_rot p)) /\
  slipstream p xc (w_y p - nth j (w_r p) 0) = Some (k * nth j (w_va p) 0, 0, - k * (nth j (w_vt p) 0 * w_rot p)).
Proof.
  intros p j xc LA LT RI HP J0 J1 k. 
  assert (first (w_r p) = nth 0 (w_r p) 0) as FE by (unfold first; destruct (w_r p); reflexivity).
  assert (last (w_r p) 0 = nth (length (w_r p) - 1) (w_r p) 0) as LE.
  { clear. induction (w_r p) as [|a l IH]; [reflexivity|]. destruct l as [|b l]; [reflexivity|]. change (last (a :: b :: l) 0) with (last (b :: l) 0). rewrite IH. cbn [length]. 
    replace (S (S (length l)) - 1)%nat with (S (S (length l) - 1)) by lia. reflexivity. }
  assert (nth 0 (w_r p) 0 < nth j (w_r p) 0) as B1 by (apply rising_nth; [assumption|lia]).
  assert (nth j (w_r p) 0 < nth (length (w_r p) - 1) (w_r p) 0) as B2 by (apply rising_nth; [assumption|lia]).
  assert (0 < nth 0 (w_r p) 0) as B0 by (destruct (w_r p); exact HP).
  assert (nth j (map (fun v => v * w_rot p) (w_vt p)) 0 = nth j (w_vt p) 0 * w_rot p) as MT.
  { rewrite (nth_indep _ _ (0 * w_rot p)) by (rewrite map_length; lia). apply (map_nth (fun v => v * w_rot p)). }
  unfold slipstream. cbv zeta. rewrite FE, LE. fold k. split.
  - lcase (w_y p + nth 0 (w_r p) 0) (w_y p + nth j (w_r p) 0); [|lra]. lcase (w_y p + nth j (w_r p) 0) (w_y p + nth (length (w_r p) - 1) (w_r p) 0); [|lra].
    rewrite orb_true_r. rewrite !interp_right by (rewrite ?map_length; try assumption; try lia; now symmetry). rewrite MT.
    lcase (w_y p + nth j (w_r p) 0) (w_y p); [lra|]. reflexivity.
  - lcase (w_y p - nth (length (w_r p) - 1) (w_r p) 0) (w_y p - nth j (w_r p) 0); [|lra]. lcase (w_y p - nth j (w_r p) 0) (w_y p - nth 0 (w_r p) 0); [|lra].
    cbn [andb orb]. rewrite !interp_left by (rewrite ?map_length; try assumption; try lia; now symmetry). rewrite MT.
    lcase (w_y p - nth j (w_r p) 0) (w_y p); [|lra]. reflexivity.
Qed.
Definition ex_slip : slip := {| w_x := 0; w_y := 3; w_tip := 2; w_rot := 1; w_r := [1 / 2; 1; 2]; w_va := [3; 4; 1]; w_vt := [1; 1; 1] |}.
Example C115_slipstream_ex : length (w_va ex_slip) = length (w_r ex_slip) /\ rising (w_r ex_slip) /\ 0 < hd 0 (w_r ex_slip) /\ (2 < length (w_r ex_slip))%nat.
Proof. cbn. repeat split; try lra; lia. Qed.
(** where slipstreams overlap the last propeller wins instead of adding, and only the first control point gets any *)
Theorem C115_superposition_refuted : forall ps p n xc yc w, slipstream p xc yc = Some w ->
  slipstreams (ps ++ [p]) n xc yc 0 = w /\ (forall i, (0 < i)%nat -> slipstreams (ps ++ [p]) n xc yc i = (0, 0, 0)).
Proof.
  intros ps p n xc yc w H. unfold slipstreams. split.
  - rewrite fold_left_app. cbn [fold_left]. rewrite H. reflexivity.
  - intros i I. generalize (ps ++ [p]). intros l. assert (forall z, fold_left (fun v p => match slipstream p xc yc with Some w => if Nat.eqb i 0 then w else v | None => v end) l z = z) as G.
    { induction l as [|q l IH]; intros z; [reflexivity|]. cbn [fold_left]. rewrite IH. replace (Nat.eqb i 0) with false by (symmetry; apply Nat.eqb_neq; lia). destruct (slipstream q xc yc); reflexivity. }
    apply G.
Qed.

(** ** C116: propeller design *)
(** exactly one of thrust and power must be asked for, it must not be zero, and there must be two stations *)
Theorem C116_request : forall fuel d,
  (d_thrust d = None /\ d_power d = None \/ d_thrust d <> None /\ d_power d <> None -> propeller_design fuel d = Err GenericException) /\
  ((2 <= d_n d)%nat -> d_thrust d = Some 0 /\ d_power d = None \/ d_thrust d = None /\ d_power d = Some 0 -> propeller_design fuel d = Err UnboundLocalError).
Proof.
  intros fuel d. unfold propeller_design, goal_of. split.
  - intros [[-> ->]|[A B]]; [reflexivity|]. destruct (d_thrust d); [|congruence]. destruct (d_power d); [reflexivity|congruence].
  - intros N H. assert (has_two d = true) as T. { unfold has_two. apply Nat.leb_le. now rewrite chis_length. }
    destruct H as [[-> ->]|[-> ->]]; cbn [bind]; rewrite T; cbn [negb]; unfold set_goal.
    + replace (2 * 0 / (a_rho (d_air d) * (d_V d * d_V d) * PI * (d_tip d * d_tip d))) with 0 by (unfold Rdiv; ring). destruct (Req_EM_T 0 0); [reflexivity|congruence].
    + replace (2 * 0 / (a_rho (d_air d) * (d_V d * d_V d * d_V d) * PI * (d_tip d * d_tip d))) with 0 by (unfold Rdiv; ring). destruct (Req_EM_T 0 0); [reflexivity|congruence].
Qed.
(** whatever the number of rounds: a finished design for thrust gives the thrust asked for if its wake can, otherwise the most it can; one for
    power takes the power asked for; neither gives more than it takes *)
Lemma design_parts : forall fuel d g, propeller_design fuel d = Ok (Some g) -> sound_brief d ->
  exists gl zl, goal_of d = Ok gl /\ design_loop fuel d gl (1 / 10) = Some zl /\
  let q := integrals d zl in let zeta := next_zeta gl q in
  g_thrust g = (q_i1 q * zeta - q_i2 q * (zeta * zeta)) * a_rho (d_air d) * (d_V d * d_V d) * PI * (d_tip d * d_tip d) / 2 /\
  g_power g = (q_j1 q * zeta + q_j2 q * (zeta * zeta)) * a_rho (d_air d) * (d_V d * d_V d * d_V d) * PI * (d_tip d * d_tip d) / 2 /\
  g_torque g = g_power g / d_omega d /\
  g_Ct g = g_thrust g / (a_rho (d_air d) * (d_omega d / (2 * PI) * (d_omega d / (2 * PI))) * (2 * d_tip d * (2 * d_tip d) * (2 * d_tip d) * (2 * d_tip d))) /\
  g_Cp g = g_power g / (a_rho (d_air d) * (d_omega d / (2 * PI) * (d_omega d / (2 * PI)) * (d_omega d / (2 * PI))) * (2 * d_tip d * (2 * d_tip d) * (2 * d_tip d) * (2 * d_tip d) * (2 * d_tip d))) /\
  g_r g = map (fun chi => chi * d_tip d) (chis d) /\ g_chord g = map p_chord (map (design_point d zl) (chis d)) /\
  g_design_thrust g = match d_power d with None => d_thrust d | Some _ => Some (g_thrust g) end /\
  g_design_power g = match d_power d with None => Some (g_power g) | Some p => Some p end.
Proof.
  intros fuel d g H SB. unfold propeller_design in H. destruct (goal_of d) as [gl|e]; cbn [bind] in H; [|discriminate].
  destruct (negb (has_two d)); [discriminate|]. destruct (set_goal gl); [|discriminate].
  destruct (design_loop fuel d gl (1 / 10)) as [zl|] eqn:DL; [|discriminate]. exists gl, zl. split; [reflexivity|]. split; [exact DL|]. cbv zeta in *.
  injection H as <-. cbn [g_thrust g_power g_torque g_Ct g_Cp g_r g_chord g_design_thrust g_design_power]. repeat split.
Qed.
Lemma dynamic_pos : forall d, sound_brief d -> 0 < a_rho (d_air d) * (d_V d * d_V d) * PI * (d_tip d * d_tip d) / 2.
Proof.
  intros d SB. destruct (d_V_pos d SB) as [_ V]. pose proof (sb_hub d SB). pose proof (sb_tip d SB). pose proof PI_RGT_0. pose proof (sa_rho _ (sb_air d SB)). apply Rdiv_lt_0_compat; [|lra].
  apply Rmult_lt_0_compat; [apply Rmult_lt_0_compat; [apply Rmult_lt_0_compat; [assumption|nra]|assumption]|]. assert (0 < d_tip d) by lra. nra.
Qed.
Theorem C116_thrust : forall fuel d g t, propeller_design fuel d = Ok (Some g) -> sound_brief d -> d_thrust d = Some t -> 0 < t ->
  exists zl, 0 < zl /\ g_thrust g = Rmin t (most_thrust d (integrals d zl)) /\ 0 < g_thrust g /\ g_design_thrust g = Some t.
Proof.
  intros fuel d g t H SB HT TP. destruct (design_parts fuel d g H SB) as (gl & zl & GL & DL & E1 & E2 & _ & _ & _ & _ & _ & E3 & _).
  unfold goal_of in GL. rewrite HT in GL. destruct (d_power d) as [p|] eqn:DP; [discriminate|]. injection GL as <-.
  pose proof (dynamic_pos d SB) as K. set (k := a_rho (d_air d) * (d_V d * d_V d) * PI * (d_tip d * d_tip d) / 2) in *.
  set (Tc := 2 * t / (a_rho (d_air d) * (d_V d * d_V d) * PI * (d_tip d * d_tip d))) in *.
  assert (Tc = t / k) as TE by (unfold Tc, k; field; destruct (d_V_pos d SB); pose proof (sa_rho _ (sb_air d SB)); pose proof PI_RGT_0; pose proof (sb_hub d SB); pose proof (sb_tip d SB); repeat split; lra).
  assert (0 < Tc) as T0 by (rewrite TE; now apply Rdiv_lt_0_compat).
  destruct (loop_pos d (ForThrust Tc) SB T0 fuel (1 / 10) zl ltac:(lra) DL) as [Z0 _]. exists zl. split; [exact Z0|].
  destruct (integrals_sound d zl SB Z0) as (A & B & _ & _). destruct (thrust_root (integrals d zl) Tc A B T0) as (R1 & R2 & R3 & R4 & R5).
  set (q := integrals d zl) in *. set (z := next_zeta (ForThrust Tc) q) in *.
  assert (g_thrust g = capped q Tc * k) as E. { rewrite E1, R1. unfold k. field. }
  assert (most_thrust d q = q_i1 q * q_i1 q / (4 * q_i2 q) * k) as M by reflexivity.
  split; [|split; [rewrite E; apply Rmult_lt_0_compat; lra|rewrite E3; assumption]].
  assert (t = Tc * k) as TK by (rewrite TE; field; lra).
  assert (0 < 4 * q_i2 q) as B4 by lra.
  assert (q_i1 q * q_i1 q / (4 * q_i2 q) * (4 * q_i2 q) = q_i1 q * q_i1 q) as C by (field; lra).
  rewrite E, M. set (m := q_i1 q * q_i1 q / (4 * q_i2 q)) in *.
  destruct (Rlt_le_dec (4 * q_i2 q * Tc) (q_i1 q * q_i1 q)) as [L|L].
  - rewrite (R4 L). rewrite Rmin_left; [symmetry; assumption|]. rewrite TK. apply Rmult_le_compat_r; [lra|]. nra.
  - rewrite (R5 L). rewrite Rmin_right; [reflexivity|]. rewrite TK. apply Rmult_le_compat_r; [lra|]. nra.
Qed.
(** so the thrust recorded as design thrust can be more than the designed propeller gives *)
Theorem C116_power : forall fuel d g p, propeller_design fuel d = Ok (Some g) -> sound_brief d -> d_power d = Some p -> 0 < p ->
  g_power g = p /\ g_design_power g = Some p /\ g_design_thrust g = Some (g_thrust g).
Proof.
  intros fuel d g p H SB HP PP. destruct (design_parts fuel d g H SB) as (gl & zl & GL & DL & E1 & E2 & _ & _ & _ & _ & _ & E3 & E4).
  unfold goal_of in GL. rewrite HP in *. destruct (d_thrust d) as [t|] eqn:DT; [discriminate|]. injection GL as <-.
  split; [|split; assumption].
  set (k := a_rho (d_air d) * (d_V d * d_V d * d_V d) * PI * (d_tip d * d_tip d)) in *.
  assert (0 < k) as K. { pose proof (dynamic_pos d SB) as D. destruct (d_V_pos d SB) as [_ V]. unfold k. 
    replace (a_rho (d_air d) * (d_V d * d_V d * d_V d) * PI * (d_tip d * d_tip d)) with (a_rho (d_air d) * (d_V d * d_V d) * PI * (d_tip d * d_tip d) / 2 * (2 * d_V d)) by field. apply Rmult_lt_0_compat; lra. }
  assert (0 < 2 * p / k) as P0 by (apply Rdiv_lt_0_compat; lra).
  destruct (loop_pos d (ForPower (2 * p / k)) SB P0 fuel (1 / 10) zl ltac:(lra) DL) as [Z0 _].
  destruct (integrals_sound d zl SB Z0) as (A & _ & B & C). assert (0 < q_j1 (integrals d zl)) as J by lra.
  destruct (power_root (integrals d zl) (2 * p / k) J B P0) as [R1 _]. rewrite E2, R1. transitivity (2 * p / k * k / 2); [unfold k; field|]; [|field; lra].
  pose proof (sa_rho _ (sb_air d SB)). destruct (d_V_pos d SB) as [_ V]. pose proof PI_RGT_0. pose proof (sb_hub d SB). pose proof (sb_tip d SB). repeat split; lra.
Qed.
Theorem C116_efficiency : forall fuel d g, propeller_design fuel d = Ok (Some g) -> sound_brief d ->
  (forall t, d_thrust d = Some t -> 0 < t) -> (forall p, d_power d = Some p -> 0 < p) ->
  d_speed d * g_thrust g <= g_power g /\ 0 < g_power g /\ g_torque g * d_omega d = g_power g /\
  g_Ct g * (a_rho (d_air d) * (d_omega d / (2 * PI)) ^ 2 * (2 * d_tip d) ^ 4) = g_thrust g /\
  g_Cp g * (a_rho (d_air d) * (d_omega d / (2 * PI)) ^ 3 * (2 * d_tip d) ^ 5) = g_power g.
Proof.
  intros fuel d g H SB HT HP. destruct (design_parts fuel d g H SB) as (gl & zl & GL & DL & E1 & E2 & E3 & E4 & E5 & _).
  pose proof (dynamic_pos d SB) as K. destruct (d_V_pos d SB) as [VE V].
  assert (0 < wanted gl) as W.
  { unfold goal_of in GL. assert (0 < a_rho (d_air d) * (d_V d * d_V d) * PI * (d_tip d * d_tip d)) as K1 by lra.
    destruct (d_thrust d) as [t|], (d_power d) as [p|]; try discriminate; injection GL as <-; cbn [wanted].
    - apply Rdiv_lt_0_compat; [|assumption]. pose proof (HT t eq_refl). lra.
    - apply Rdiv_lt_0_compat; [pose proof (HP p eq_refl); lra|]. replace (a_rho (d_air d) * (d_V d * d_V d * d_V d) * PI * (d_tip d * d_tip d)) with (a_rho (d_air d) * (d_V d * d_V d) * PI * (d_tip d * d_tip d) * d_V d) by ring. now apply Rmult_lt_0_compat. }
  destruct (loop_pos d gl SB W fuel (1 / 10) zl ltac:(lra) DL) as [Z0 _]. pose proof (next_pos d gl zl SB W Z0) as ZN.
  destruct (integrals_sound d zl SB Z0) as (A & B & C & D). set (q := integrals d zl) in *. set (z := next_zeta gl q) in *. cbv zeta in E1, E2.
  set (k := a_rho (d_air d) * (d_V d * d_V d) * PI * (d_tip d * d_tip d) / 2) in *.
  assert (g_thrust g = (q_i1 q * z - q_i2 q * (z * z)) * k) as ET by (rewrite E1; unfold k; field).
  assert (g_power g = (q_j1 q * z + q_j2 q * (z * z)) * k * d_V d) as EP by (rewrite E2; unfold k; field).
  assert (q_i1 q * z - q_i2 q * (z * z) <= q_j1 q * z + q_j2 q * (z * z)) as L.
  { assert (0 < z * z) by nra. assert (q_i1 q * z <= q_j1 q * z) by nra. nra. }
  assert (0 < q_j1 q * z + q_j2 q * (z * z)) as PP. { assert (0 < z * z) by nra. assert (0 < q_j1 q * z) by (apply Rmult_lt_0_compat; lra). nra. }
  split; [|split; [|split]].
  - rewrite <- VE, ET, EP. replace (d_V d * ((q_i1 q * z - q_i2 q * (z * z)) * k)) with ((q_i1 q * z - q_i2 q * (z * z)) * (k * d_V d)) by ring. rewrite Rmult_assoc. apply Rmult_le_compat_r; [nra|exact L].
  - rewrite EP. apply Rmult_lt_0_compat; [apply Rmult_lt_0_compat; assumption|assumption].
  - rewrite E3. field. pose proof (sb_omega d SB). lra.
  - pose proof (sb_omega d SB). pose proof (sa_rho _ (sb_air d SB)). pose proof PI_RGT_0. pose proof (sb_hub d SB). pose proof (sb_tip d SB).
    split; [rewrite E4|rewrite E5]; field; repeat split; lra.
Qed.
(** the blade: the stations asked for, from the hub in equal steps, all short of the tip by at least one step; chords are positive *)
Theorem C116_blade : forall fuel d g, propeller_design fuel d = Ok (Some g) -> sound_brief d ->
  (forall t, d_thrust d = Some t -> 0 < t) -> (forall p, d_power d = Some p -> 0 < p) ->
  length (g_r g) = d_n d /\ length (g_chord g) = d_n d /\
  (forall i, (i < d_n d)%nat -> nth i (g_r g) 0 = d_hub d + INR i * ((d_tip d - d_hub d) / INR (d_n d)) /\ nth i (g_r g) 0 <= d_tip d - (d_tip d - d_hub d) / INR (d_n d)) /\
  Forall (fun c => 0 < c) (g_chord g).
Proof.
  intros fuel d g H SB HT HP. destruct (design_parts fuel d g H SB) as (gl & zl & GL & DL & _ & _ & _ & _ & _ & E1 & E2 & _).
  pose proof (dynamic_pos d SB) as K. destruct (d_V_pos d SB) as [VE V].
  assert (0 < wanted gl) as W.
  { unfold goal_of in GL. assert (0 < a_rho (d_air d) * (d_V d * d_V d) * PI * (d_tip d * d_tip d)) as K1 by lra.
    destruct (d_thrust d) as [t|], (d_power d) as [p|]; try discriminate; injection GL as <-; cbn [wanted].
    - apply Rdiv_lt_0_compat; [|assumption]. pose proof (HT t eq_refl). lra.
    - apply Rdiv_lt_0_compat; [pose proof (HP p eq_refl); lra|]. replace (a_rho (d_air d) * (d_V d * d_V d * d_V d) * PI * (d_tip d * d_tip d)) with (a_rho (d_air d) * (d_V d * d_V d) * PI * (d_tip d * d_tip d) * d_V d) by ring. now apply Rmult_lt_0_compat. }
  destruct (loop_pos d gl SB W fuel (1 / 10) zl ltac:(lra) DL) as [Z0 _].
  rewrite E1, E2, !map_length, chis_length. split; [reflexivity|]. split; [reflexivity|]. split.
  - intros i I. pose proof (sb_hub d SB) as HH. pose proof (sb_tip d SB) as TT. assert (0 < INR (d_n d)) as N by (apply lt_0_INR; lia).
    assert (nth i (map (fun chi => chi * d_tip d) (chis d)) 0 = d_hub d + INR i * ((d_tip d - d_hub d) / INR (d_n d))) as E.
    { rewrite (nth_indep _ _ (0 * d_tip d)) by (rewrite map_length, chis_length; assumption). rewrite (map_nth (fun chi => chi * d_tip d)), chis_nth by assumption. field. lra. }
    split; [exact E|]. rewrite E. assert (INR i <= INR (d_n d) - 1) as L. { assert (S i <= d_n d)%nat as Q by lia. apply le_INR in Q. rewrite S_INR in Q. lra. }
    replace (d_tip d - (d_tip d - d_hub d) / INR (d_n d)) with (d_hub d + (INR (d_n d) - 1) * ((d_tip d - d_hub d) / INR (d_n d))) by (field; lra).
    assert (0 < (d_tip d - d_hub d) / INR (d_n d)) by (apply Rdiv_lt_0_compat; lra). nra.
  - rewrite map_map. apply Forall_forall. intros c I. apply in_map_iff in I. destruct I as (chi & <- & I).
    pose proof (chis_range d SB) as R. pose proof (sb_glide d SB zl Z0) as G. rewrite Forall_forall in R, G. apply (point_sound d zl chi SB Z0 (R chi I) (G chi I)).
Qed.
(** a propeller without section drag, asked for the power its first guess takes: the design ends *)
Definition ex_brief (th pw : option R) : brief := {| d_n := 2; d_blades := 2; d_tip := 2; d_hub := 1; d_omega := 100; d_speed := 50; d_cl := 1 / 2; d_thrust := th; d_power := pw;
  d_air := ex_air; d_cd := fun _ => 0; d_alpha := fun _ => 0 |}.
Lemma ex_sound : forall th pw, sound_brief (ex_brief th pw).
Proof.
  intros th pw. constructor; cbn [d_n d_blades d_tip d_hub d_omega d_speed d_cl d_air d_cd ex_brief]; try lra; try lia; [constructor; cbn; lra|intros; lra|].
  intros zeta Z. apply Forall_forall. intros chi _. unfold glide. cbv zeta. cbn [d_cd ex_brief].
  match goal with |- compressible_drag 0 ?a ?b / ?c * ?t < 1 => replace (compressible_drag 0 a b / c * t) with 0; [lra|] end.
  rewrite compressible_factor. unfold Rdiv. ring.
Qed.
Example C116_power_ex : exists p g, 0 < p /\ propeller_design 1 (ex_brief None (Some p)) = Ok (Some g) /\ sound_brief (ex_brief None (Some p)).
Proof.
  set (q := integrals (ex_brief None None) (1 / 10)). destruct (integrals_sound _ (1 / 10) (ex_sound None None) ltac:(lra)) as (A & B & C & D). fold q in A, B, C, D.
  set (Pc := q_j1 q * (1 / 10) + q_j2 q * (1 / 10 * (1 / 10))). assert (0 < Pc) as P0 by (unfold Pc; nra).
  set (k := a_rho ex_air * (d_V (ex_brief None None) * d_V (ex_brief None None) * d_V (ex_brief None None)) * PI * (2 * 2)).
  assert (d_V (ex_brief None None) = 50) as VE by (unfold d_V; cbn; destruct (Req_EM_T 50 0); lra).
  assert (0 < k) as K by (unfold k; rewrite VE; cbn; pose proof PI_RGT_0; nra).
  exists (Pc * k / 2). eexists. split; [apply Rdiv_lt_0_compat; [now apply Rmult_lt_0_compat|lra]|]. split; [|apply ex_sound].
  unfold propeller_design. assert (goal_of (ex_brief None (Some (Pc * k / 2))) = Ok (ForPower Pc)) as G.
  { unfold goal_of. cbn [d_thrust d_power ex_brief d_air d_tip]. f_equal. f_equal. change (d_V (ex_brief None (Some (Pc * k / 2)))) with (d_V (ex_brief None None)). fold k.
    transitivity (2 * (Pc * k / 2) / k); [reflexivity|field; lra]. }
  rewrite G. cbn [bind]. assert (has_two (ex_brief None (Some (Pc * k / 2))) = true) as T by (unfold has_two; apply Nat.leb_le; rewrite chis_length; cbn; lia).
  rewrite T. cbn [negb]. unfold set_goal. destruct (Req_EM_T Pc 0) as [ZP|ZP]; [exfalso; lra|]. cbn [design_loop]. cbv zeta.
  change (integrals (ex_brief None (Some (Pc * k / 2))) (1 / 10)) with q.
  assert (next_zeta (ForPower Pc) q = 1 / 10) as Z.
  { assert (0 < q_j1 q) as J by lra. destruct (power_root q Pc J C P0) as [R1 R2]. set (z := next_zeta (ForPower Pc) q) in *. unfold Pc in R1.
    assert ((z - 1 / 10) * (q_j1 q + q_j2 q * (z + 1 / 10)) = 0) as Q by lra. apply Rmult_integral in Q. destruct Q as [Q|Q]; [lra|]. nra. }
  rewrite Z. lcase (/ 10 ^ 10) (Rabs (1 / 10 - 1 / 10)).
  { exfalso. replace (1 / 10 - 1 / 10) with 0 in H by ring. rewrite Rabs_R0 in H. assert (0 < / 10 ^ 10) by (apply Rinv_0_lt_compat, pow_lt; lra). lra. }
  reflexivity.
Qed.

(** and one asked for the thrust its first guess gives *)
Example C116_thrust_ex : exists t g, 0 < t /\ propeller_design 1 (ex_brief (Some t) None) = Ok (Some g) /\ sound_brief (ex_brief (Some t) None).
Proof.
  set (q := integrals (ex_brief None None) (1 / 10)). destruct (integrals_sound _ (1 / 10) (ex_sound None None) ltac:(lra)) as (A & B & C & D). fold q in A, B, C, D.
  assert (d_V (ex_brief None None) = 50) as VE by (unfold d_V; cbn; destruct (Req_EM_T 50 0); lra).
  assert (q_i2 q <= q_i1 q) as I2.
  { unfold q, integrals. cbv zeta. cbn [q_i1 q_i2]. rewrite !map_map. apply total_leq. apply Forall_forall. intros chi I.
    pose proof (chis_range _ (ex_sound None None)) as R. rewrite Forall_forall in R. destruct (R chi I) as [R1 R2].
    assert (1 / 2 <= chi) as R3.
    { apply (In_nth _ _ 0) in I. destruct I as (n & N & <-). rewrite chis_length in N. rewrite chis_nth by exact N. cbn [d_hub d_tip d_n ex_brief]. cbn [d_n ex_brief] in N.
      destruct n as [|[|n]]; [cbn; lra|cbn; lra|lia]. }
    pose proof (sb_glide _ (ex_sound None None) (1 / 10) ltac:(lra)) as GG. rewrite Forall_forall in GG.
    destruct (point_sound _ (1 / 10) chi (ex_sound None None) ltac:(lra) (conj R1 R2) (GG chi I)) as [P1 _ _ _ _].
    assert (0 < nth 1 (chis (ex_brief None None)) 0 - nth 0 (chis (ex_brief None None)) 0) as DC. { rewrite !chis_nth by (cbn; lia). cbn. lra. }
    apply Rmult_le_compat_r; [lra|]. set (i1 := p_i1 (design_point (ex_brief None None) (1 / 10) chi)) in *.
    assert (exists phi, p_i2 (design_point (ex_brief None None) (1 / 10) chi) = 1 / 4 * (i1 / (2 * chi)) * (sin phi * cos phi)) as [phi ->].
    { eexists (atan (lamda (ex_brief None None) * (1 + 1 / 10 / 2) / chi)). unfold i1, design_point. cbv zeta. cbn [p_i2 p_i1 d_cd ex_brief].
      rewrite !compressible_factor. unfold lamda. rewrite VE. cbn [d_omega d_tip d_cl ex_brief].
      assert (0 < 50 / (100 * 2) * (1 + 1 / 10 / 2) / chi) as TP by (apply Rdiv_lt_0_compat; lra).
      destruct (atan_pos_sc _ TP) as (_ & _ & TE). rewrite TE. unfold Rdiv. rewrite !Rmult_0_r, !Rmult_0_l. field.
      pose proof PI_RGT_0. lra. }
    assert (sin phi * cos phi <= 1) as SC. { pose proof (sin2_cos2 phi) as Q. unfold Rsqr in Q. nra. }
    assert (0 < i1 / (2 * chi) <= i1) as [Q1 Q2]. { split; [apply Rdiv_lt_0_compat; lra|]. apply frac_le; nra. }
    nra. }
  set (Tc := q_i1 q * (1 / 10) - q_i2 q * (1 / 10 * (1 / 10))). assert (0 < Tc) as P0 by (unfold Tc; lra).
  set (k := a_rho ex_air * (d_V (ex_brief None None) * d_V (ex_brief None None)) * PI * (2 * 2)).
  assert (0 < k) as K by (unfold k; rewrite VE; cbn; pose proof PI_RGT_0; nra).
  exists (Tc * k / 2). eexists. split; [apply Rdiv_lt_0_compat; [now apply Rmult_lt_0_compat|lra]|]. split; [|apply ex_sound].
  unfold propeller_design. assert (goal_of (ex_brief (Some (Tc * k / 2)) None) = Ok (ForThrust Tc)) as G.
  { unfold goal_of. cbn [d_thrust d_power ex_brief d_air d_tip]. f_equal. f_equal. change (d_V (ex_brief (Some (Tc * k / 2)) None)) with (d_V (ex_brief None None)).
    transitivity (2 * (Tc * k / 2) / k); [reflexivity|field; lra]. }
  rewrite G. cbn [bind]. assert (has_two (ex_brief (Some (Tc * k / 2)) None) = true) as T by (unfold has_two; apply Nat.leb_le; rewrite chis_length; cbn; lia).
  rewrite T. cbn [negb]. unfold set_goal. destruct (Req_EM_T Tc 0) as [ZP|ZP]; [exfalso; lra|]. cbn [design_loop]. cbv zeta.
  change (integrals (ex_brief (Some (Tc * k / 2)) None) (1 / 10)) with q.
  assert (next_zeta (ForThrust Tc) q = 1 / 10) as Z.
  { destruct (thrust_root q Tc A B P0) as (_ & _ & _ & R4 & _). assert (4 * q_i2 q * Tc < q_i1 q * q_i1 q) as L by (unfold Tc; nra). specialize (R4 L).
    unfold next_zeta. cbv zeta. rewrite R4. set (h := q_i1 q / (2 * q_i2 q)). assert (q_i1 q = 2 * h * q_i2 q) as E by (unfold h; field; lra).
    assert (1 / 2 <= h) as H2. { unfold h. apply frac_ge; lra. }
    replace (h * h - Tc / q_i2 q) with ((h - 1 / 10) * (h - 1 / 10)) by (unfold Tc; rewrite E; field; lra). rewrite sqrt_square by lra. lra. }
  rewrite Z. lcase (/ 10 ^ 10) (Rabs (1 / 10 - 1 / 10)).
  { exfalso. replace (1 / 10 - 1 / 10) with 0 in H by ring. rewrite Rabs_R0 in H. assert (0 < / 10 ^ 10) by (apply Rinv_0_lt_compat, pow_lt; lra). lra. }
  reflexivity.
Qed.
Print Assumptions C109_widths.
Print Assumptions C109_linear_loading.
Print Assumptions C109_azimuths.
Print Assumptions C109_single_azimuth_refuted.
Print Assumptions C109_swept_blade_refuted.
Print Assumptions C110_induction_is_perpendicular.
Print Assumptions C110_radial_flow_refuted.
Print Assumptions C110_power_balance.
Print Assumptions C110_no_more_out_than_in.
Print Assumptions C111_coefficients.
Print Assumptions C111_off.
Print Assumptions C111_at_rest_refuted.
Print Assumptions C111_throttle_off_refuted.
Print Assumptions C111_backwards_refuted.
Print Assumptions C111_in_plane_force.
Print Assumptions C111_disc_and_axial_agree.
Print Assumptions C111_crosswind.
Print Assumptions C111_axial_ignores_crosswind_refuted.
Print Assumptions C112_axes.
Print Assumptions C112_tilt.
Print Assumptions C112_euler_angles_refuted.
Print Assumptions C113_tip_loss.
Print Assumptions C113_reversed_inflow.
Print Assumptions C114_never_zero.
Print Assumptions C114_lift_curve.
Print Assumptions C114_karman_tsien.
Print Assumptions C114_sonic_jump_refuted.
Print Assumptions C114_negative_stall_refuted.
Print Assumptions C114_drag_correction.
Print Assumptions C114_unknown_airfoil.
Print Assumptions C115_development.
Print Assumptions C115_contraction.
Print Assumptions C115_slipstream.
Print Assumptions C115_superposition_refuted.
Print Assumptions C116_request.
Print Assumptions C116_thrust.
Print Assumptions C116_power.
Print Assumptions C116_efficiency.
Print Assumptions C116_blade.
