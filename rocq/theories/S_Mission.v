(** * What a user may expect of a mission: specification vocabulary *)
From Coq Require Import Reals List ZArith.
From Verif Require Import M_Rot M_Mission M_Segments.
Import ListNotations.
Local Open Scope R_scope.
Local Open Scope list_scope.

(** the last control point *)
Definition last_row (n : nat) : nat := (n - 1)%nat.

(** [b] starts where [a] ends *)
Record continues (a b : segment) : Prop := {
  cont_time : time (sg_conds b) 0%nat = time (sg_conds a) (last_row (sg_n a));
  cont_mass : mass (sg_conds b) 0%nat = mass (sg_conds a) (last_row (sg_n a));
  cont_position : pos (sg_conds b) 0%nat = pos (sg_conds a) (last_row (sg_n a));
  cont_range : range (sg_conds b) 0%nat = range (sg_conds a) (last_row (sg_n a));
  cont_latitude : lat (sg_conds b) 0%nat = lat (sg_conds a) (last_row (sg_n a));
  cont_longitude : lon (sg_conds b) 0%nat = lon (sg_conds a) (last_row (sg_n a))
}.

(** every segment of the list starts where the one before it ends *)
Definition chained (l : list segment) : Prop :=
  forall before a b behind, l = before ++ a :: b :: behind -> continues a b.

(** the first control point is dimensionless time zero and the integral from there to there is
    zero; true of the Chebyshev operators (C38) *)
Definition starts_at_zero (st : settings) (n : nat) : Prop :=
  fst (fst (discretization st n)) 0%nat = 0 /\ forall j, snd (discretization st n) 0%nat j = 0.
(** the last control point is dimensionless time one *)
Definition ends_at_one (st : settings) (n : nat) : Prop :=
  fst (fst (discretization st n)) (last_row n) = 1.

(** time the segment takes *)
Definition elapsed (s : segment) : R :=
  time (sg_conds s) (last_row (sg_n s)) - time (sg_conds s) 0%nat.

(** sum of the durations *)
Fixpoint total_elapsed (l : list segment) : R :=
  match l with [] => 0 | s :: r => elapsed s + total_elapsed r end.

(** a network that integrates the battery energy from its value at the first control point *)
Definition network_starts_from_stored_energy (an : analyses) : Prop :=
  forall c, b_energy (snd (an_energy an c)) 0%nat = b_energy (batt c) 0%nat.
(** the battery energy of [b] starts where that of [a] ends *)
Definition energy_continues (a b : segment) : Prop :=
  b_energy (batt (sg_conds b)) 0%nat = b_energy (batt (sg_conds a)) (last_row (sg_n a)).
(** everything the conditions say about the battery at control point [i] *)
Record battery_state := Battery_state {
  s_energy : R; s_pack_temperature : R; s_cell_temperature : R; s_throughput : R;
  s_max_initial : R; s_max_aged : R; s_fade : R; s_growth : R; s_day : Z; s_discharge : bool }.
Definition battery_row (q : battery) (i : nat) : battery_state :=
  Battery_state (b_energy q i) (b_pack_temp q i) (b_cell_temp q i) (b_throughput q i)
    (b_max_initial q) (b_max_aged q) (b_fade q) (b_growth q) (b_day q) (b_discharge q).
Definition network_keeps_battery_start (an : analyses) : Prop :=
  forall c, battery_row (snd (an_energy an c)) 0%nat = battery_row (batt c) 0%nat.
(** what a segment with settings [st] receives from a battery left in state [s]: the state
    itself, but a segment's own battery temperature replaces both temperatures, the discharge
    flag is the segment's, and a charging segment (flag false) renews the usable capacity from
    the initial one and the fade factor *)
Definition handed_on (st : settings) (s : battery_state) : battery_state :=
  let T old := match battery_temperature st with Some t => t | None => old end in
  Battery_state (s_energy s) (T (s_pack_temperature s)) (T (s_cell_temperature s)) (s_throughput s)
    (s_max_initial s)
    (if battery_discharge st then s_max_aged s else s_max_initial s * s_fade s)
    (s_fade s) (s_growth s) (s_day s) (battery_discharge st).
Definition battery_handed_on (a b : segment) : Prop :=
  battery_row (batt (sg_conds b)) 0%nat
  = handed_on (sg_settings b) (battery_row (batt (sg_conds a)) (last_row (sg_n a))).
(** initialize_battery is one of the segment's processes *)
Definition carries_battery (s : segment) : Prop :=
  battery_in_initialize (sg_settings s) = true \/ battery_in_iterate (sg_settings s) = true.

(** a segment with at least two control points, the first at dimensionless time zero, that the
    solver evaluates at least once *)
Definition usable (s : segment) : Prop :=
  starts_at_zero (sg_settings s) (sg_n s) /\ sg_calls s <> [] /\ (2 <= sg_n s)%nat.
