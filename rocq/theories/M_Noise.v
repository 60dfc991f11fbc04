(** * Noise: model

    Sources under /repo/trunk/SUAVE/Methods/Noise.  Numbers are reals.  numpy's log10 is [log10];
    it is only meant for positive numbers (of zero, numpy makes minus infinity). *)
From Coq Require Import Reals List Bool Arith ZArith.
From Verif Require Import M_Opt M_Rot.
Import ListNotations.
Local Open Scope R_scope.
Local Open Scope list_scope.

Definition log10 (x : R) : R := ln x / ln 10.
Definition p10 (x : R) : R := Rpower 10 x.
Definition sum (l : list R) : R := fold_right Rplus 0 l.
(** numpy max of a list that is not empty *)
Definition maxl (l : list R) : R := match l with [] => 0 | x :: r => fold_left Rmax r x end.
(** numpy linspace *)
Definition linspace (a b : R) (n : nat) : list R :=
  map (fun i => if Nat.eqb n 1 then a else a + INR i * ((b - a) / INR (n - 1))) (seq 0 n).

(** ** Fidelity_One/Noise_Tools/decibel_arithmetic.py *)
(** 62-63, 88-89: along the summed axis *)
Definition spl_sum (l : list R) : R := 10 * log10 (sum (map (fun s => p10 (s / 10)) l)).
(** 35 *)
Definition pressure_ratio_to_SPL (l : list R) : R := 10 * log10 (sum l).
(** 59-65: [None] dimensions but one: the levels are handed back *)
Definition SPL_arithmetic_1d (l : list R) : list R := l.

(** ** Fidelity_One/Noise_Tools/SPL_harmonic_to_third_octave.py:57-67, for one control point,
    microphone and rotor: [h] the harmonics as (frequency, level), [bands] as (lower, upper) *)
Definition in_band (lo hi f : R) : bool := negb (Rltb f lo) && negb (Rltb hi f).
Definition third_octave (bands : list (R * R)) (h : list (R * R)) : list R :=
  map (fun b =>
    match filter (fun x => in_band (fst b) (snd b) (fst x)) h with
    | [] => 0
    | l => spl_sum (map snd l)
    end) bands.

(** ** Fidelity_One/Noise_Tools/atmospheric_attenuation.py:41-44 *)
Definition att_dB : list R :=
  [9/100; 11/100; 14/100; 17/100; 22/100; 28/100; 35/100; 44/100; 55/100; 7/10; 88/100; 111/100; 142/100; 178/100; 224/100; 288/100;
   364/100; 46/10; 589/100; 763/100; 868/100; 1108/100; 1487/100; 2061/100].
Definition atmospheric_attenuation (dist : R) : list R := map (fun a => a * dist / 1000) att_dB.

(** ** Fidelity_One/Noise_Tools/dbA_noise.py:38-43 and 64-67 *)
Definition dbA_attenuation : list R :=
  [-302/10; -262/10; -225/10; -191/10; -161/10; -134/10; -109/10; -86/10; -66/10; -48/10; -32/10; -19/10; -8/10; 0; 6/10; 1; 12/10;
   13/10; 12/10; 1; 5/10; -1/10; -11/10; -25/10].
Definition dbA_noise (SPL : list R) : list R := map (fun p => fst p + snd p) (combine SPL dbA_attenuation).
Definition A_weighting (SPL f : R) : R :=
  let Ra_f := 12194 ^ 2 * f ^ 4 /
    ((f ^ 2 + (206 / 10) ^ 2) * (f ^ 2 + 12194 ^ 2) * sqrt (f ^ 2 + (1077 / 10) ^ 2) * sqrt (f ^ 2 + (7379 / 10) ^ 2)) in
  SPL + (2 + 20 * log10 Ra_f).

(** ** Fidelity_One/Noise_Tools/noise_tone_correction.py

    A spectrum is its 24 levels by number.  The loops fill arrays element by element; here each
    array is the function of the index that the loop leaves behind, zero where the loop writes
    nothing.  [between a b i] is: i in range(a,b). *)
Definition between (a b i : nat) : bool := (a <=? i)%nat && (i <? b)%nat.
Section Tone.
Variable SPL : nat -> R.
(** 51-52 *)
Definition slope (i : nat) : R := if between 3 23 i then SPL i - SPL (i - 1)%nat else 0.
(** 57-63 *)
Definition delta_slope (i : nat) : bool := between 3 23 i && Rltb 5 (Rabs (slope i - slope (i - 1)%nat)).
(** 70-75: not zero *)
Definition step3 (i : nat) : bool :=
  (delta_slope i && Rltb 0 (slope i) && Rltb (slope (i - 1)%nat) (slope i)) ||
  (delta_slope (S i) && negb (Rltb 0 (slope (S i))) && Rltb 0 (slope i)).
(** 80-87 *)
Definition step4 (i : nat) : R :=
  if between 1 23 i then
    if step3 i then (if Nat.eqb i 22 then SPL (i - 1)%nat + slope (i - 1)%nat else (SPL (i - 1)%nat + SPL (S i)) / 2) else SPL i
  else 0.
(** 92-96 *)
Definition step5 (i : nat) : R :=
  let main i := if between 3 23 i then step4 i - step4 (i - 1)%nat else 0 in
  if Nat.eqb i 2 then main 3%nat else if Nat.eqb i 24 then main 23%nat else main i.
(** 101-106; the case i == 22 cannot arise *)
Definition step6 (i : nat) : R := if between 2 22 i then (step5 i + step5 (S i) + step5 (S (S i))) / 3 else 0.
(** 111-114 *)
Fixpoint running (k : nat) : R := match k with O => SPL 2%nat | S k => running k + step6 (2 + k) end.
Definition step7 (i : nat) : R := if between 2 23 i then running (i - 2) else 0.
(** 119-138 *)
Definition step8 (i : nat) : R :=
  let d := SPL i - step7 i in
  if between 2 16 i then (if Rltb d (3 / 2) then 0 else d)
  else if between 17 22 i then (if negb (Rltb d (3 / 2)) && Rltb 0 (SPL i) && Rltb 0 (SPL (S i)) && Rltb 0 (SPL (i - 1)%nat) then d else 0)
  else if Nat.eqb i 23 then (if negb (Rltb d (3 / 2)) && Rltb 0 (SPL 23%nat) && Rltb 0 (SPL 22%nat) then d else 0)
  else 0.
(** 144-164 *)
Definition correction_low (f : R) : R :=
  let c := if negb (Rltb f (3 / 2)) && Rltb f 3 then f / 3 - 1 / 2 else 0 in
  let c := if negb (Rltb f 3) && Rltb f 20 then f / 6 else c in
  if Rltb 20 f then 3 + 1 / 3 else c.
Definition correction_mid (f : R) : R :=
  let c := if negb (Rltb f (3 / 2)) && Rltb f 3 then 2 / 3 * f - 1 else 0 in
  let c := if negb (Rltb f 3) && Rltb f 20 then f / 3 else c in
  if Rltb 20 f then 6 + 2 / 3 else c.
Definition tone_correction (i : nat) : R :=
  if between 2 9 i then correction_low (step8 i)
  else if between 10 20 i then correction_mid (step8 i)
  else if between 21 23 i then correction_low (step8 i)
  else 0.
(** 169 *)
Definition tone_correction_max : R := maxl (map tone_correction (seq 0 23)).
End Tone.
(** 40-171: "return" is inside the loop over the time steps.  [None]: without a step Python's None
    is returned *)
Definition noise_tone_correction (SPL : list (nat -> R)) : option (list R) :=
  match SPL with
  | [] => None
  | s :: r => Some (tone_correction_max s :: map (fun _ => 0) r)
  end.

(** ** Fidelity_One/Noise_Tools/pnl_noise.py *)
(** 38-61: columns 2 to 10 of the table *)
Record noy_row := Noy { y2 : R; y3 : R; y4 : R; y5 : R; y6 : R; y7 : R; y8 : R; y9 : R; y10 : R }.
Definition big : R := 9999999.
Definition m6 (z : Z) : R := IZR z / 1000000.
Definition noy : list noy_row :=
 [ Noy 91 64 52 49 55 (m6 43478) (m6 30103) (m6 79520) (m6 58098);
   Noy (859/10) 60 51 44 51 (m6 40570) (m6 30103) (m6 68160) (m6 58098);
   Noy (873/10) 56 49 39 46 (m6 36831) (m6 30103) (m6 68160) (m6 52288);
   Noy (799/10) 53 47 34 42 (m6 36831) (m6 30103) (m6 59640) (m6 47534);
   Noy (798/10) 51 46 30 39 (m6 35336) (m6 30103) (m6 53013) (m6 43573);
   Noy 76 48 45 27 36 (m6 33333) (m6 30103) (m6 53013) (m6 43573);
   Noy 74 46 43 24 33 (m6 33333) (m6 30103) (m6 53013) (m6 40221);
   Noy (749/10) 44 42 21 30 (m6 32051) (m6 30103) (m6 53013) (m6 37349);
   Noy (946/10) 42 41 18 27 (m6 30675) (m6 30103) (m6 53013) (m6 34859);
   Noy big 40 40 16 25 (m6 30103) 0 (m6 53013) (m6 34859);
   Noy big 40 40 16 25 (m6 30103) 0 (m6 53013) (m6 34859);
   Noy big 40 40 16 25 (m6 30103) 0 (m6 53013) (m6 34859);
   Noy big 40 40 16 25 (m6 30103) 0 (m6 53013) (m6 34859);
   Noy big 40 40 16 25 (m6 30103) 0 (m6 53013) (m6 34859);
   Noy big 38 38 15 23 (m6 30103) 0 (m6 59640) (m6 34859);
   Noy big 34 34 12 21 (m6 29960) 0 (m6 53013) (m6 40221);
   Noy big 32 32 9 18 (m6 29960) 0 (m6 53013) (m6 37349);
   Noy big 30 30 5 15 (m6 29960) 0 (m6 47712) (m6 34859);
   Noy big 29 29 4 14 (m6 29960) 0 (m6 47712) (m6 34859);
   Noy big 29 29 5 14 (m6 29960) 0 (m6 53013) (m6 34859);
   Noy big 30 30 6 15 (m6 29960) 0 (m6 53013) (m6 34859);
   Noy big 31 31 10 17 (m6 29960) 0 (m6 68160) (m6 37349);
   Noy (443/10) 37 34 17 23 (m6 42285) (m6 29960) (m6 79520) (m6 37349);
   Noy (507/10) 41 37 21 29 (m6 42285) (m6 29960) (m6 59640) (m6 43573) ].
(** 75: noy[1][2], for every band *)
Definition noy_1_2 : R := 859 / 10.
(** 75-85: one band *)
Definition noys (r : noy_row) (s : R) : R :=
  let v := 0 in
  let v := if negb (Rltb s noy_1_2) then p10 (y8 r * (s - y4 r)) else v in
  let v := if negb (Rltb s (y3 r)) && Rltb s (y2 r) then p10 (y7 r * (s - y3 r)) else v in
  let v := if negb (Rltb s (y6 r)) && Rltb s (y3 r) then 3 / 10 * p10 (y10 r * (s - y6 r)) else v in
  if negb (Rltb s (y5 r)) && Rltb s (y6 r) then 1 / 10 * p10 (y9 r * (s - y5 r)) else v.
(** 66, 74: the loop runs over range(0,23), so the last of the 24 entries stays zero *)
Definition noisiness (SPL : list R) : list R := map (fun p => noys (fst p) (snd p)) (firstn 23 (combine noy SPL)) ++ [0].
(** 90-98 *)
Definition pnl (SPL : list R) : R :=
  let v := noisiness SPL in
  let n := 85 / 100 * maxl v + 15 / 100 * sum v in
  let n := if Req_EM_T n 0 then 625 / 10000 else n in
  40 + 10 / log10 2 * log10 n.

(** ** Fidelity_One/Noise_Tools/epnl_noise.py and senel_noise.py *)
(** 49-51: the first number above [m] - 10 *)
Fixpoint first_above (m : R) (l : list R) : nat :=
  match l with
  | [] => 0%nat
  | x :: r => if Rltb (m - 10) x then 0%nat else S (first_above m r)
  end.
(** 59-60: how many numbers in a row are at least [m] - 10 *)
Fixpoint count_loud (m : R) (l : list R) : nat :=
  match l with
  | [] => 0%nat
  | x :: r => if Rltb x (m - 10) then 0%nat else S (count_loud m r)
  end.
(** 49-66: the samples range(t1-1,t2+1) takes; index -1 is the last one *)
Definition counted (l : list R) : list R :=
  let n := List.length l in
  let m := maxl l in
  let t1 := first_above m l in
  let stop := if negb (Rltb (last l 0) (m - 10)) then (n - 1)%nat else (S t1 + count_loud m (skipn (S t1) l))%nat in
  let at' i := nth i l 0 in
  match t1 with
  | O => at' (n - 1)%nat :: map at' (seq 0 stop)
  | S k => map at' (seq k (stop - k))
  end.
(** [None]: numpy max of nothing raises *)
Definition epnl_noise (l : list R) : option R :=
  match l with
  | [] => None
  | _ => if forallb (fun x => if Req_EM_T x 0 then true else false) l then Some 0
         else let m := maxl l in let d := 10 * log10 (sum (map (fun x => p10 (x / 10)) (counted l))) - m - 13 in Some (m + d)
  end.
Definition senel_noise (l : list R) : option R :=
  match l with
  | [] => None
  | _ => Some (10 * log10 (sum (map (fun x => p10 (x / 10)) (counted l))))
  end.

(** ** Fidelity_One/Noise_Tools/noise_geometric.py *)
(** 52 *)
Definition nudge (s : R) : R := if Req_EM_T s 0 then 1 / 100000000 else s.
(** 69-72, 99-102: distance and angle from the aircraft at height [h], [s] along the track, to a
    microphone below the track at [x0] (numpy's arctan of h/0 is a right angle) *)
Definition overhead (h s x0 : R) : R * R :=
  let dist := sqrt (h ^ 2 + (s - x0) ^ 2) in
  let a := if Req_EM_T (s - x0) 0 then PI / 2 else atan (Rabs (h / (s - x0))) in
  (dist, if Rltb (s - x0) 0 then PI - a else a).
(** 132-136, 147-151 *)
Definition beside (y0 h s x0 : R) : R * R * R :=
  let phi := atan (y0 / h) in
  let dist := sqrt ((y0 / sin phi) ^ 2 + (s - x0) ^ 2) in
  let a := acos (Rabs ((x0 - s) / dist)) in
  (dist, (if Rltb (s - x0) 0 then PI - a else a), phi).
(** 55-72: approach, the microphone 2000 m ahead of the threshold *)
Definition geometric_approach (h s : R) : R * R := overhead h (nudge s) 2000.
(** 74-102: fly-over; [S_0] is the take-off field length *)
Definition geometric_flyover (S_0 h s : R) : R * R := overhead h (nudge s) (6500 - S_0).
(** 104-136: sideline *)
Definition geometric_sideline (x0 h s : R) : R * R * R := beside 450 h (nudge s) x0.
(** 137-151: any other: x0 is position_vector[:,-1], the last column, that is minus the height *)
Definition geometric_other (h s : R) : R * R * R := beside 450 h (nudge s) (- h).

(** ** Fidelity_One/Noise_Tools/generate_microphone_points.py *)
(** 38-47 *)
Definition ground_microphones (min_x max_x min_y max_y : R) (N_x N_y : nat) : list v3 :=
  flat_map (fun x => map (fun y => V3 x y 0) (linspace min_y max_y N_y)) (linspace min_x max_x N_x).
(** 51-169: a building is (location, (l, w, h)) *)
Definition building_faces (loc dim : v3) (N_x N_y N_z : nat) : list v3 :=
  let xs := map (fun t => t * (vx dim / 2) + vx loc) (linspace (-1) 1 N_x) in
  let ys := map (fun t => t * (vy dim / 2) + vy loc) (linspace (-1) 1 N_y) in
  let zs := map (fun t => t * vz dim) (linspace 0 1 N_z) in
  flat_map (fun y => map (fun z => V3 (vx loc - vx dim / 2) y z) zs) ys ++
  flat_map (fun x => map (fun z => V3 x (vy loc + vy dim / 2) z) zs) xs ++
  flat_map (fun y => map (fun z => V3 (vx loc + vx dim / 2) y z) zs) ys ++
  flat_map (fun x => map (fun z => V3 x (vy loc - vy dim / 2) z) zs) xs ++
  flat_map (fun x => map (fun y => V3 x y (vz dim)) ys) xs.
(** 117-119, 148-150: N_x by N_z arrays are reshaped to N_y*N_z numbers: ValueError, [None], when that does not fit *)
Definition building_microphones (bs : list (v3 * v3)) (N_x N_y N_z : nat) : option (list v3) :=
  if Nat.eqb (N_x * N_z) (N_y * N_z) then Some (flat_map (fun b => building_faces (fst b) (snd b) N_x N_y N_z) bs) else None.

(** ** Fidelity_One/Noise_Tools/compute_noise_evaluation_locations.py:39-56: one control point and one
    microphone: relative position, THETA and PHI *)
Definition evaluation_location (pos mic : v3) : v3 * R * R :=
  let d := V3 (vx pos - vx mic) (vy pos - vy mic) (- vz pos - vz mic) in
  (d, atan (vz d / vx d), atan (vz d / vy d)).

(** ** Fidelity_One/Noise_Tools/noise_certification_limits.py:43-65; [around] is numpy's rounding to one
    decimal, Units.lbs = 0.45359237 *)
Definition lbs : R := 45359237 / 100000000.
Definition limit_sideline (around : R -> R) (tow : R) : R := around (ln (tow / lbs / (682 / 100 * / 10 ^ 7)) * (256 / 100) / ln 2).
Definition limit_flyover (around : R -> R) (tow : R) (engines : nat) : R :=
  let C := if (3 <? engines)%nat then 896 / 100 * / 10 ^ 3 else if Nat.eqb engines 3 then 127 / 100 * / 10 ^ 2 else 213 / 100 * / 10 ^ 2 in
  around (ln (tow / lbs / C) * 4 / ln 2).
Definition limit_approach (around : R -> R) (lw : R) : R := around (ln (lw / lbs / (168 / 100 * / 10 ^ 8)) * (233 / 100) / ln 2).

(** ** Fidelity_Zero/shevell.py:48-70; Units.force_pound = 4.4482216152605 *)
Definition force_pound : R := 44482216152605 / 10000000000000.
Definition shevell_engine (engines thrust : R) : R :=
  let pct := thrust / force_pound / 25000 * 100 in
  10 * log10 (p10 (101 / 10) * engines) + (- (2193 / 10000000) * pct ^ 2 + 9454 / 100000 * pct - 730116 / 100000).
Definition shevell (weight_landing engines thrust_sl thrust_landing : R) : R * R * R :=
  let red := thrust_landing / thrust_sl * 100 in
  let noise_landing := - (15766 / 10000000) * red ^ 2 + 34882 / 100000 * red - 192569 / 10000 in
  let landing := shevell_engine engines thrust_sl - 5 + 91 / 10 + noise_landing in
  let airframe := 40 + 10 * log10 (weight_landing / lbs) in
  (shevell_engine engines thrust_sl - 4 + -4, shevell_engine engines thrust_sl - 4 + - (65 / 10),
   10 * log10 (p10 (airframe / 10) + p10 (landing / 10))).

(** ** Fidelity_One/Airframe *)
(** Units.ft, Units.kts *)
Definition ft : R := 3048 / 10000.
Definition kts : R := 1852 / 3600.
(** noise_clean_wing.py:57-76, one frequency *)
Definition clean_wing (S b ND : R) (horizontal : bool) (velocity viscosity M phi theta distance frequency : R) : R :=
  let delta := 37 / 100 * (S / b) * Rpower (velocity / ft * S / (b * viscosity)) (- (2 / 10)) in
  let DIR := if horizontal then cos phi else sin phi in
  if Req_EM_T DIR 0 then 0
  else
    let fmax := 1 / 10 * (velocity / ft) / (delta * (1 - M * cos theta)) in
    let OASPL := 50 * log10 (velocity / kts / 100) + 10 * log10 (delta * b / distance ^ 2) + 8 * ND +
                 20 * log10 (DIR * sin theta * cos (theta / 2)) + 1043 / 10 in
    OASPL + 10 * log10 (613 / 1000 * (frequency / fmax) ^ 4 * / (Rpower (frequency / fmax) (15 / 10) + 5 / 10) ^ 4)
      - 3 / 100 * Rpower (Rabs (frequency / fmax - 1)) (15 / 10).
(** noise_leading_edge_slat.py:45-50; [slat] is noise_clean_wing(0.15*Sw,bw,1,1,...) *)
Definition leading_edge_slat (wing slat : list R) : list R :=
  let peakfactor := 3 + maxl wing - maxl slat in
  map (fun p => 10 * log10 (p10 (1 / 10 * (fst p + 3)) + p10 (1 / 10 * (snd p + peakfactor)))) (combine wing slat).
(** noise_trailing_edge_flap.py:48-66 *)
Definition flap_G (slots : nat) (test : R) : R :=
  if Nat.eqb slots 1 || Nat.eqb slots 2 then
    if Rltb test 2 then 99 + 10 * log10 test else if Rltb test 20 then 10382 / 100 - 6 * log10 test else 13504 / 100 - 30 * log10 test
  else if Nat.eqb slots 3 then
    if Rltb test 2 then 99 + 10 * log10 test else if Rltb test 75 then 10261 / 100 - 2 * log10 test else 15811 / 100 - 30 * log10 test
  else 0.
(** 70-78 *)
Definition trailing_edge_flap (Sf cf deltaf : R) (slots : nat) (velocity M phi theta distance frequency : R) : R :=
  let test := frequency * cf / (velocity / ft * (1 - M * cos theta)) in
  let directivity := if negb (Rltb (theta + deltaf) PI) then 0 else 20 * log10 (sin theta * cos phi ^ 2 * sin (theta + deltaf)) in
  flap_G slots test + 10 * log10 (Sf * sin deltaf ^ 2 / distance ^ 2) + 60 * log10 (velocity / kts / 100) + directivity.
(** noise_landing_gear.py:63-83; [G1] and [G2] are lines 66-76 *)
Definition landing_gear (D velocity G1 G2 distance : R) : R :=
  60 * log10 (velocity / kts / 194) + 20 * log10 (D / distance) + 10 * log10 (p10 G1 + p10 G2).
(** noise_airframe_Fink.py:171-190, one time step and frequency.  [gear] is [None] when it is up;
    the vertical tail is computed (169) but not summed *)
Definition airframe_total (wing ht vt slat : R) (flap : option R) (gear : option (R * R)) (main_units : nat) : R :=
  let flap := match flap with Some f => f | None => 0 end in
  let main := match gear with Some (m, _) => m | None => 0 end in
  let nose := match gear with Some (_, n) => n | None => 0 end in
  let main := if (1 <? main_units)%nat then main + 3 * (INR main_units - 1) else main in
  10 * log10 (p10 (1 / 10 * wing) + p10 (1 / 10 * ht) + p10 (1 / 10 * flap) + p10 (1 / 10 * slat) + p10 (1 / 10 * main) + p10 (1 / 10 * nose)).
(** 155: the loop over the time steps is range(nrange-1): the last row of the history stays zero *)
Definition history (levels : list (list R)) : list (list R) :=
  match rev levels with [] => [] | l :: r => rev (map (fun _ => 0) l :: r) end.
