(** * Jet noise after SAE ARP 876: model

    Sources, under /repo/trunk/SUAVE/Methods/Noise/Fidelity_One/Engine: SA = noise_SAE.py, SL = noise_source_location.py, PC = primary_noise_component.py,
    JI = jet_installation_effect.py, AA = angle_of_attack_effect.py, GP = ground_proximity_effect.py, EP = external_plug_effect.py.
    Numbers are reals.  Arrays over frequencies are lists; the code has 24 bands (SA 161 of the 29 of Fidelity_One.py 92). *)
From Coq Require Import Reals Bool Arith List.
From Verif Require Import PyBase M_Opt M_Noise M_Drag.
Import ListNotations.
Local Open Scope R_scope.

(** ** the streams: SA 200-220; gas constant and specific heats as there *)
Definition R_gas : R := 2871 / 10.
Definition cp_of (gamma : R) : R := R_gas / (1 - 1 / gamma).
(** SA 203-204 *)
Definition jet_density (gamma p T V : R) : R := p / (R_gas * T - 1 / 2 * R_gas * V ^ 2 / cp_of gamma).
(** SA 145-146 *)
Definition disc (d : R) : R := PI * (d / 2) ^ 2.
Record jets := Jets { j_Dp : R; j_Ds : R; j_Vp : R; j_Vs : R; j_Tp : R; j_Ts : R; j_Pp : R; j_Ps : R; j_amb : R }.
Definition density_p (j : jets) : R := jet_density (137 / 100) (j_Pp j) (j_Tp j) (j_Vp j).
Definition density_s (j : jets) : R := jet_density (14 / 10) (j_Ps j) (j_Ts j) (j_Vs j).
(** SA 206-207 *)
Definition flow_p (j : jets) : R := disc (j_Dp j) * j_Vp j * density_p j.
Definition flow_s (j : jets) : R := disc (j_Ds j) * j_Vs j * density_s j.
(** SA 213-220 *)
Definition V_mixed (j : jets) : R := (flow_p j * j_Vp j + flow_s j * j_Vs j) / (flow_p j + flow_s j).
Definition T_mixed (j : jets) : R := (flow_p j * j_Tp j + flow_s j * j_Ts j) / (flow_p j + flow_s j).
Definition density_m (j : jets) : R := jet_density (14 / 10) (j_amb j) (T_mixed j) (V_mixed j).
Definition A_mixed (j : jets) : R := disc (j_Dp j) * density_p j * j_Vp j * (1 + flow_s j / flow_p j) / (density_m j * V_mixed j).
Definition D_mixed (j : jets) : R := sqrt (4 * A_mixed j / PI).
(** SA 226-230 *)
Definition bypass (j : jets) : R := let x := flow_s j / flow_p j - 55 / 10 in if Rltb x 0 then 0 else if Rltb 4 x then 4 else x.
(** SA 233-236 *)
Definition shear (Vp Vs As Va Ap : R) : R :=
  let d := Rabs (Vp - (Vs * As + Va * Ap) / (As + Ap)) in if Rltb d (3 / 10) then 3 / 10 else d.
(** SA 246-249, 252 *)
Definition excitation (st : R) : R := if Rltb (1 / 4) st && Rltb st (1 / 2) then 0 else 50 * (st - 1 / 4) * (st - 1 / 2).
(** SA 252, 258, 261 *)
Definition zk_of (st exa : R) : R := 1 - 4 / 10 * exp (6 / 10 - sqrt exa) * exp (- excitation st).
(** SA 275-278 *)
Definition exc (ca Vm theta : R) : R := if Rltb (14 / 10) theta then ca / Vm * (1 - 18 / 10 / PI * (theta - 14 / 10)) else ca / Vm.
(** SA 291-301, 304-321 with near_field 0, 350-352: the corrections of a component; [atten] is atmospheric_attenuation *)
Definition corrections (pamb rho1 rho2 ramb D dist atten : R) : R :=
  20 * log10 (pamb / 101325) + 20 * log10 ((rho1 + rho2) / (2 * ramb)) + 0 + 0 + - atten + 20 * log10 (D / dist).
(** SA 375 *)
Definition level_total (p s m : R) : R := 10 * log10 (p10 (1 / 10 * p) + p10 (1 / 10 * s) + p10 (1 / 10 * m)).

(** ** effects: AA 41; JI 41-46; GP 43-45; EP 52 *)
Definition attack_effect (aoa mach theta : R) : R := 1 / 2 * aoa * mach * (18 / 10 * theta / PI - 6 / 10) ^ 2.
Definition installation (Xe Ye Ce Dm theta : R) : R := 1 / 2 * ((Ce - Xe) ^ 2 / (Ce * Dm)) * (exp (- Ye / Dm) * (18 / 10 * theta / PI) - 6 / 10) ^ 2.
(** 44-46 cap the first 24 *)
Fixpoint cap_first (n : nat) (l : list R) : list R :=
  match n, l with S n, x :: r => (if Rltb (25 / 10) x then 25 / 10 else x) :: cap_first n r | _, _ => l end.
Definition installations (Xe Ye Ce Dm : R) (thetas : list R) : list R := cap_first 24 (map (installation Xe Ye Ce Dm) thetas).
Definition ground_effect (Vm ca theta h Dm f : R) : R :=
  5 * Vm / ca * exp (- (9 * (theta / PI) - 675 / 100) ^ 2 - (h / Dm - 25 / 10) ^ 2) * (1 + (sin (PI * h * f / ca - PI / 2)) ^ 2) / (2 + Rabs (h * f / ca - 1)).
Definition plug_p (Vp ca theta plug Dp : R) : R := 1 / 10 * (Vp / ca) * (10 - 18 * theta / PI) * plug / Dp.

(** ** primary_noise_component: PC 43-70: the level of one band *)
Record pjet := PJet { q_V : R; q_T : R; q_dv : R; q_ca : R; q_Vs : R; q_Va : R; q_Ap : R; q_As : R; q_ex : R }.
Definition p_exponent (theta : R) : R := if Rltb (22 / 10) theta then 15 / 10 * exp (- 10 * (theta - 22 / 10) ^ 2) else 156 / 100.
Definition p_FV (q : pjet) (theta : R) : R :=
  q_V q / sqrt (14 / 10 * R_gas * q_T q) * pw (q_dv q / q_ca q) (6 / 10) * pw ((q_V q + q_Vs q) / q_ca q) (4 / 10) * pw (Rabs (q_V q - q_Va q) / q_V q) (p_exponent theta).
Definition p_level (q : pjet) (theta str dspl : R) : R :=
  let k := 18 / 10 * theta / PI - 6 / 10 in
  let z1 := - 18 * k ^ 2 in
  let z2 := - 18 - 18 * k ^ 2 in
  let a := 6 / 10 - log10 (1 + q_As q / q_Ap q) in
  let z4 := - (1 / 10) - 75 / 100 * ((q_V q - q_Vs q - q_Va q) / q_ca q) * k ^ 3 + 8 / 10 * a in
  let z5 := 50 + 20 * exp (- (theta - 26 / 10) ^ 2) in
  let z6 := 94 + 46 * exp (- (theta - 25 / 10) ^ 2) - 26 * a / exp (5 * (theta - 23 / 10) ^ 2) + dspl + q_ex q in
  (z1 * log10 (p_FV q theta) + z2) * (log10 str - 0 * log10 (p_FV q theta) - z4) ^ 2 + z5 * log10 (p_FV q theta) + z6.
(** PC 47, 68: `for i in range(0,23)` writes into the array that is handed in; bands: angle, Strouhal number, correction *)
Fixpoint overwrite (n : nat) (new old : list R) : list R :=
  match n, new, old with S n, x :: r, _ :: o => x :: overwrite n r o | _, _, _ => old end.
Definition primary_levels (q : pjet) (bands : list (R * R * R)) (old : list R) : list R :=
  overwrite 23 (map (fun b => p_level q (fst (fst b)) (snd (fst b)) (snd b)) bands) old.
(** SA 173, 195, 364-365, 379: the levels of each step go into the next call; each step: jet, bands, plug effects *)
Definition pstep : Type := (pjet * list (R * R * R) * list R)%type.
Fixpoint primary_history (steps : list pstep) (old : list R) : list (list R) :=
  match steps with
  | [] => []
  | (q, bands, plug) :: r => let l := map2 Rplus (primary_levels q bands old) plug in l :: primary_history r l
  end.
Definition primary_run (steps : list pstep) : list (list R) := primary_history steps (repeat 0 24).

(** ** noise_source_location: SL 64-89 for one band of the primary jet *)
(** 69-72: x ** (-0.5) is [/ sqrt x] *)
Definition angle_of (b : R) : R := if Rltb b 0 then PI - asin (/ sqrt (b ^ 2 + 1)) else asin (/ sqrt (b ^ 2 + 1)).
(** 67 *)
Definition slant (theta dist X : R) : R := 1 / sin theta * ((0 + X) / dist + cos theta).
(** 66, 94, 127: the place of the source as a function of its angle *)
Definition place_p (zk D ratio t : R) : R := zk * D * (4 + 4 * atan (18 * t / PI - 9) + ratio).
Definition place_s (zk D str Vs ca Va t : R) : R :=
  zk * D * (2 + 16 / 10 * atan (45 / 10 * t / PI - 225 / 100)) * (1 + 1 / 2 / sqrt str) * sqrt (1 + 7 / 10 * Vs / ca) * (Vs / (Vs - Va)).
Definition place_m (zk D str Vm ca Va t : R) : R :=
  zk * D * (3 + exp (- str) + (2 + 11 / 10 * atan (18 * t / PI - 13)) + (1 + 1 / 2 / sqrt str)) * sqrt (1 / 2 + 1 / 2 * Vm / ca) * (Vm / (Vm - Va)).
(** 76-89, 107-122, 141-157: the loop with bound [n] on its rounds; [place] one of the above; [None] if it has not ended *)
Fixpoint settle (place : R -> R) (theta dist tol : R) (n : nat) (t residual : R) : option R :=
  if Rltb tol residual then
    match n with
    | O => None
    | S n => let t2 := angle_of (slant theta dist (place t)) in let t' := (t + t2) / 2 in settle place theta dist tol n t' (Rabs (place t - place t'))
    end
  else Some t.
(** 64-89: one step before the loop, without averaging; the residual starts as the diameter *)
Definition locate (place0 place : R -> R) (theta dist D tol : R) (n : nat) (t0 : R) : option R :=
  settle place theta dist tol n (angle_of (slant theta dist (place0 t0))) D.
