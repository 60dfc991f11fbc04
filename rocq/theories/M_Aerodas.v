(** * AERODAS: lift and drag of wings before and after stall

    Sources under /repo/trunk/SUAVE/Methods/Aerodynamics/AERODAS:
      SP = section_properties.py, FA = finite_aspect_ratio.py, PR = pre_stall_coefficients.py, PO = post_stall_coefficients.py, AS = AERODAS_setup.py;
    run one after another for each wing by Analyses/Aerodynamics/AERODAS.py 61-82.
    All arrays hold one value per flight condition and are combined element by element, so one condition is modelled.  Powers are 0 for arguments that are not positive
    (as in numpy for 0 and positive exponents).  [CL2[con3]] with con3 a list of one mask (PO 83, 87) is read as indexing with the mask, as numpy does before 1.23. *)
From Coq Require Import Reals List Bool.
From Verif Require Import PyBase M_Opt M_Drag.
Import ListNotations.
Local Open Scope R_scope.
Local Open Scope list_scope.

(** AS 87-90, 120; SP 53-55 *)
Record aset := { q_zero : R; q_slope : R; q_min : R; q_more : R; q_ref : R }.
Record awing := { g_ar : R; g_tc : R; g_mac : R; g_vert : bool; g_area : R }.
Definition deg : R := PI / 180.
(** SP 66-91: what is stored in wing.section *)
Record section := { x_clmax : R; x_stall : R; x_cdmax : R; x_cd0 : R; x_mid : R }.
Definition section_properties (q : aset) (re : R) (w : awing) : section :=
  let RE := re * g_mac w in
  let clmax := 15 / 10 in
  let CF := 576 / 10000 * Rpower RE (- (2 / 10)) in
  let k1 := 2 * (11 / 10) * g_tc w in
  let k2 := 11 / 10 * (11 / 10) * Rpower (1 + 5) (g_tc w) * g_tc w / 2 in
  let cd0 := 2 * (1 + k1 + k2) * CF in
  {| x_clmax := clmax; x_stall := q_zero q + clmax / q_slope q; x_cdmax := 10 * cd0; x_cd0 := cd0; x_mid := q_min q |}.
(** FA 57-81: the local variable ACL1 (60) is not stored *)
Record finite := { y_clmax : R; y_cdmax : R; y_slope : R; y_acd : R }.
Definition finite_aspect_ratio (q : aset) (w : awing) (x : section) : finite :=
  let AR := g_ar w in let s := q_slope q / deg in
  {| y_acd := x_stall x + 182 / 10 * x_clmax x * Rpower AR (- (9 / 10)) * deg;
     y_slope := s * AR / (2 + sqrt (4 + AR ^ 2)) * deg;
     y_cdmax := x_cdmax x + 28 / 100 * (x_clmax x * x_clmax x) * Rpower AR (- (9 / 10));
     y_clmax := x_clmax x * (67 / 100 + 33 / 100 * exp (- (4 / AR) ^ 2)) |}.
(** PR 51-87; [a] is the angle of attack, 0 for vertical wings *)
Definition attack (w : awing) (alpha : R) : R := if g_vert w then 0 else alpha.
Definition tiny : R := 1 / 10 ^ 16.
Definition pre_stall (q : aset) (w : awing) (x : section) (y : finite) (alpha : R) : R * R :=
  let a := attack w alpha in let A0 := q_zero q in let A1 := x_stall x in
  let r := let r := y_slope y * (A1 - A0) - y_clmax y in if Rltb 0 r then r else tiny in
  let N1 := 1 + y_clmax y / r in
  let cl := if Rltb A0 a then y_slope y * (a - A0) - r * pw ((a - A0) / (A1 - A0)) N1
            else if Rltb a A0 then y_slope y * (a - A0) + r * pw ((A0 - a) / (A1 - A0)) N1 else 0 in
  let cd := if negb (Rltb a (2 * A0 - y_acd y)) && negb (Rltb (y_acd y) a)
            then x_cd0 x + (y_cdmax y - x_cd0 x) * ((a - x_mid x) / (y_acd y - x_mid x)) ^ 2 else 0 in
  (cl, cd).
(** PO 63-78 *)
Definition cl2_max (w : awing) : R := 119 / 100 * (1 - g_tc w * g_tc w) * (65 / 100 + 35 / 100 * exp (- Rpower (9 / g_ar w) (23 / 10))).
Definition cd2_max (w : awing) : R := 23 / 10 * exp (- pw (65 / 100 * g_tc w) (9 / 10)) * (52 / 100 + 48 / 100 * exp (- Rpower (65 / 10 / g_ar w) (11 / 10))).
(** PO 81-87, 91-96: one side; None where the conditions leave the element alone *)
Definition lift_side (w : awing) (A1 a : R) : option R :=
  let r := 1632 / 1000 - cl2_max w in let N2 := 1 + cl2_max w / r in
  let first := if Rltb 0 a && Rltb a A1 then Some 0 else None in
  let second := if negb (Rltb a A1) && negb (Rltb (92 * deg) a) then Some (- (32 / 1000) * (a / deg - 92) - r * pw ((92 * deg - a) / (51 * deg)) N2) else first in
  if negb (Rltb a (92 * deg)) then Some (- (32 / 1000) * (a / deg - 92) + r * pw ((a - 92 * deg) / (51 * deg)) N2) else second.
Definition post_stall (q : aset) (w : awing) (x : section) (y : finite) (alpha : R) : R * R :=
  let a := attack w alpha in let A0 := q_zero q in let A1 := x_stall x in let an := - a + 2 * A0 in
  let cl := match lift_side w A1 an with
            | Some c => - c                                           (* 94-96: 0., or the terms with opposite signs *)
            | None => match lift_side w A1 a with Some c => c | None => 0 end
            end in
  let rise b := y_cdmax y + (cd2_max w - y_cdmax y) * sin ((b - y_acd y) / (PI / 2 - y_acd y)) in
  let inside b := Rltb (2 * A0 - A1) b && Rltb b A1 in
  let cd := 0 in
  let cd := if inside a then 0 else cd in                             (* 102 *)
  let cd := if Rltb (y_acd y) a then rise a else cd in                (* 103 *)
  let cd := if inside an then 0 else cd in                            (* 109 *)
  let cd := if negb (Rltb an (y_acd y)) then rise an else cd in       (* 110 *)
  (cl, cd).
(** SP, FA, PR, PO for a wing, then AS 103-109 *)
Definition wing_polar (q : aset) (re alpha : R) (w : awing) : R * R :=
  let x := section_properties q re w in let y := finite_aspect_ratio q w x in
  let p := pre_stall q w x y alpha in let s := post_stall q w x y alpha in
  (if Rltb (q_zero q) alpha then Rmax (fst p) (fst s) else Rmin (fst p) (fst s), Rmax (snd p) (snd s)).
(** AS 83-126 *)
Definition lift_drag_total (q : aset) (re alpha : R) (ws : list awing) : R * R :=
  let t := fold_left (fun t w => let c := wing_polar q re alpha w in
    (if g_vert w then fst t else fst t + fst c * g_area w / q_ref q, snd t + snd c * g_area w / q_ref q)) ws (0, 0) in
  (fst t, snd t + q_more q).
