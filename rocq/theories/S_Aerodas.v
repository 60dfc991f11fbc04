(** * Vocabulary: AERODAS *)
From Coq Require Import Reals List Bool.
From Verif Require Import PyBase M_Opt M_Drag M_Aerodas.
Import ListNotations.
Local Open Scope R_scope.
Local Open Scope list_scope.

(** angle of attack of maximum lift of the section, lift-curve slope of the wing, stated maximum lift coefficient of the wing *)
Definition stall (q : aset) : R := q_zero q + 15 / 10 / q_slope q.
Definition wing_slope (q : aset) (w : awing) : R := q_slope q * g_ar w / (2 + sqrt (4 + g_ar w ^ 2)).
Definition stated_max (w : awing) : R := 15 / 10 * (67 / 100 + 33 / 100 * exp (- (4 / g_ar w) ^ 2)).
(** angle of maximum drag before stall, minimum drag, drag at that angle *)
Definition drag_angle (q : aset) (w : awing) : R := stall q + 273 / 10 * Rpower (g_ar w) (- (9 / 10)) * deg.
Definition least_drag (re : R) (w : awing) : R :=
  1152 / 10000 * (1 + 22 / 10 * g_tc w + 121 / 200 * g_tc w * Rpower 6 (g_tc w)) * Rpower (re * g_mac w) (- (2 / 10)).
Definition stall_drag (re : R) (w : awing) : R := 10 * least_drag re w + 63 / 100 * Rpower (g_ar w) (- (9 / 10)).
(** a wing and settings that make sense: an angle of zero lift well below stall, stall below 92 degrees *)
Record sensible (q : aset) (w : awing) : Prop := {
  s_slope : 0 < q_slope q; s_ar : 0 < g_ar w; s_tc : 0 <= g_tc w < 1;
  s_zero : 2 * q_zero q <= stall q; s_stall : 0 <= stall q <= 92 * deg }.
Definition horizontal (w : awing) : Prop := g_vert w = false.
Definition lift q re w alpha : R := fst (wing_polar q re alpha w).
Definition drag q re w alpha : R := snd (wing_polar q re alpha w).
(** post-stall lift between stall and 92 degrees, in units of 51 degrees below 92 *)
Definition fading (w : awing) (u : R) : R := 1632 / 1000 * u - (1632 / 1000 - cl2_max w) * pw u (1632 / 1000 / (1632 / 1000 - cl2_max w)).
Definition below92 (alpha : R) : R := (92 * deg - alpha) / (51 * deg).
Fixpoint sum_over (f : awing -> R) (ws : list awing) : R := match ws with [] => 0 | w :: r => f w + sum_over f r end.
