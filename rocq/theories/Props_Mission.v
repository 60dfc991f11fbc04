(** * C20: sequential segments are chained *)
From Coq Require Import Reals List Bool Lra Lia.
From Verif Require Import M_Opt M_Rot M_Mission M_Segments S_Mission P_Mission Props_Frames.
Import ListNotations.
Local Open Scope R_scope.
Local Open Scope list_scope.

(** In a mission of any number of segments of any of the modelled kinds, however often the solver
    calls them with whatever unknowns, whatever their stored state was before, each segment
    starts where the one before it ends: time, mass, position, range, latitude and longitude. *)
Theorem C20_chained : forall segs out, Forall usable segs -> evaluate_mission segs = Some out ->
  chained out /\ length out = length segs.
Proof. exact mission_chained. Qed.
(** so the whole time is the sum of the durations *)
Theorem C20_elapsed : forall segs a rest, Forall usable segs -> evaluate_mission segs = Some (a :: rest) ->
  let z := last rest a in
  time (sg_conds z) (last_row (sg_n z)) - time (sg_conds a) 0%nat = total_elapsed (a :: rest).
Proof.
  intros segs a rest Hu H. destruct (mission_chained _ _ Hu H) as [C _]. exact (chained_elapsed rest a C).
Qed.
(** the first segment starts at the take-off mass and at its own latitude and longitude (zero
    when it has none) *)
Theorem C20_start : forall s segs out, Forall usable (s :: segs) -> evaluate_mission (s :: segs) = Some out ->
  exists a rest, out = a :: rest /\ mass (sg_conds a) 0%nat = an_takeoff (sg_analyses s) /\
    (lat (sg_conds a) 0%nat, lon (sg_conds a) 0%nat)
    = match segment_position (sg_settings s) with Some q => q | None => (0, 0) end.
Proof. exact mission_start. Qed.
(** battery energy is continuous wherever initialize_battery is among the processes of the later
    segment and its network integrates from the stored energy *)
Theorem C20_battery : forall segs out, Forall (fun s => sg_calls s <> []) segs ->
  evaluate_mission segs = Some out ->
  forall before a b behind, out = before ++ a :: b :: behind -> carries_battery b ->
    network_starts_from_stored_energy (sg_analyses b) -> energy_continues a b.
Proof. exact mission_battery_energy. Qed.
(** and so is everything else the conditions say about the battery *)
Theorem C20_battery_state : forall segs out, Forall (fun s => sg_calls s <> []) segs ->
  evaluate_mission segs = Some out ->
  forall before a b behind, out = before ++ a :: b :: behind -> carries_battery b ->
    network_keeps_battery_start (sg_analyses b) -> battery_handed_on a b.
Proof. exact mission_battery. Qed.
(** a segment with a start altitude starts there, and the previous segment's last position is
    made to agree, whatever altitude that segment ended at *)
Theorem C20_height : forall segs out, Forall usable segs -> evaluate_mission segs = Some out ->
  forall before a b behind h, out = before ++ a :: b :: behind -> start_altitude (sg_kind b) = Some h ->
    vz (pos (sg_conds a) (last_row (sg_n a))) = - h.
Proof. exact mission_height. Qed.
(** a landing roll that is the first segment starts at the take-off mass: the landing mass set by
    its initialisation is shifted away *)
Theorem C20_landing_mass_refuted : forall s segs out h v0 vf thr mu, sg_kind s = Landing_run h v0 vf thr mu ->
  an_landing (sg_analyses s) <> an_takeoff (sg_analyses s) ->
  Forall usable (s :: segs) -> evaluate_mission (s :: segs) = Some out ->
  exists a rest, out = a :: rest /\ mass (sg_conds a) 0%nat <> an_landing (sg_analyses s).
Proof.
  intros s segs out h v0 vf thr mu _ Hm Hu H. destruct (mission_start _ _ _ Hu H) as (a & rest & E & M & _).
  exists a, rest. split; [exact E|congruence].
Qed.

(** a climb from 0 to 1000 m, a cruise at 1200 m and a landing, two control points each *)
Definition two_points (n : nat) : col * mat * mat :=
  (fun i => match i with O => 0 | _ => 1 end,
   fun _ j => match j with O => -1 | _ => 1 end,
   fun i j => match i, j with O, _ => 0 | _, O => 0 | _, _ => 1 end).
Definition ex_settings : settings :=
  Settings 0 0 None (Some (10, 20)) two_points true false true None false.
Definition ex_numerics : numerics :=
  Numerics (fun _ => 0) (fun _ _ => 0) (fun _ _ => 0) (fun _ => 0) (fun _ _ => 0) (fun _ _ => 0).
Definition ex_unknowns : unknowns :=
  Unknowns (fun _ => 1) (fun _ => 1 / 10) (fun _ => 0) (fun _ => 0) (fun _ => 0) (fun _ => 60) 100.
Definition ex_segment (k : kind) : segment :=
  Segment ex_settings ex_analyses 2 k ex_numerics zero_conds ex_unknowns [ex_unknowns; ex_unknowns].
Definition ex_mission : list segment :=
  [ex_segment (Climbing (Some 0) 1000 (Speed_rate 100 5));
   ex_segment (Cruising (Some 1200) (Cruise_speed 200 100000));
   ex_segment (Landing_run (Some 0) None 0 0 (2 / 5))].
Example C20_case : Forall usable ex_mission /\ (exists out, evaluate_mission ex_mission = Some out) /\
  network_starts_from_stored_energy ex_analyses /\ network_keeps_battery_start ex_analyses /\ Forall carries_battery ex_mission /\
  Forall (fun s => sg_calls s <> []) ex_mission.
Proof.
  assert (U : forall k, usable (ex_segment k)).
  { intro k. split; [|split; [discriminate|cbn; lia]]. split; [reflexivity|]. intro j. destruct j; reflexivity. }
  split; [repeat constructor; try apply U; try discriminate; cbn; try lia; try (intro j; destruct j; reflexivity)|].
  split.
  { assert (E : match evaluate_mission ex_mission with Some _ => true | None => false end = true)
      by (vm_compute; reflexivity).
    destruct (evaluate_mission ex_mission) as [out|]; [exists out; reflexivity|discriminate]. }
  split; [intro c; reflexivity|]. split; [intro c; reflexivity|].
  split; repeat (apply Forall_cons; [first [left; reflexivity|discriminate]|]); apply Forall_nil.
Qed.

Print Assumptions C20_chained.
Print Assumptions C20_elapsed.
Print Assumptions C20_start.
Print Assumptions C20_battery.
Print Assumptions C20_battery_state.
Print Assumptions C20_height.
Print Assumptions C20_landing_mass_refuted.
