(** * Masses and centres of gravity: specification vocabulary *)
From Coq Require Import Reals List String.
From Verif Require Import M_Rot M_Mass.
Import ListNotations.
Local Open Scope R_scope.
Local Open Scope list_scope.

(** the sum of [f] over a list *)
Fixpoint summed {A} (f : A -> R) (l : list A) : R :=
  match l with [] => 0 | x :: r => f x + summed f r end.

(** ** Which components count *)
(** the components in a container at any depth, but not what components hold themselves *)
Fixpoint leaves (x : item) : list part :=
  match x with
  | Comp p _ => [p]
  | Box l => flat_map leaves l
  | Other => []
  end.
(** the components in the containers among a vehicle's attributes *)
Definition counted (attributes : list item) : list part :=
  flat_map (fun y => match y with Box _ => leaves y | _ => [] end) attributes.

(** ** Where a component is *)
(** [f] is a coordinate *)
Inductive coordinate : (v3 -> R) -> Prop := c_x : coordinate vx | c_y : coordinate vy | c_z : coordinate vz.
(** a coordinate of the mean of the origins plus that of the centre of gravity *)
Definition at_coordinate (f : v3 -> R) (p : part) : R :=
  summed f (p_origin p) / INR (List.length (p_origin p)) + f (p_cg p).
Definition is_at (p : part) (x : v3) : Prop := forall f, coordinate f -> at_coordinate f p = f x.

Definition mass_of (l : list part) : R := summed p_mass l.
(** the product of the component's position with a direction *)
Definition dot_at (n : v3) (p : part) : R :=
  vx n * at_coordinate vx p + vy n * at_coordinate vy p + vz n * at_coordinate vz p.
(** the moments of [l] about [x] vanish *)
Definition balances (l : list part) (x : v3) : Prop :=
  forall f, coordinate f -> summed (fun p => p_mass p * (at_coordinate f p - f x)) l = 0.

(** [q] is [p] moved by [d] *)
Definition moved (d : v3) (p q : part) : Prop :=
  p_mass q = p_mass p /\ forall f, coordinate f -> at_coordinate f q = at_coordinate f p + f d.

(** ** Networks *)
Definition one_origin (p : part) : Prop := exists o, p_origin p = [o].
(** a network as compute_component_centers_of_gravity leaves it, half an engine length behind its
    origin *)
Definition network_part (n : network) : part :=
  Part (p_mass (nw_part n)) (p_origin (nw_part n))
    (V3 (nw_engine_length n / 2) (vy (p_cg (nw_part n))) (vz (p_cg (nw_part n)))).
(** and what it consists of *)
Definition network_parts (n : network) : list part := network_part n :: nw_energy n.
(** each network's location times the mass of all networks before it ([m] is the mass before the
    first) *)
Fixpoint earlier_mass_moment (f : v3 -> R) (m : R) (l : list network) : R :=
  match l with
  | [] => 0
  | n :: r => m * at_coordinate f (network_part n)
              + earlier_mass_moment f (m + mass_of (network_parts n)) r
  end.

(** ** Placing *)
(** [L] is the length of the longest fuselage but at least 1, [N] its nose length *)
Definition longest (l : list fuselage) (L N : R) : Prop :=
  1 <= L /\ Forall (fun f => fs_total f <= L) l /\
  ((L = 1 /\ N = 0) \/ Exists (fun f => fs_total f = L /\ fs_nose f = N) l).
(** every named part has exactly one origin *)
Definition all_systems (s : systems) : list part :=
  [avionics s; furnishings s; apu s; passengers s; baggage s; cargo s; air_conditioner s; optionals s;
   fuel s; control_systems s; electrical_systems s; hydraulics s; main_gear s; nose_gear s].
(** [q] has the mass and the lateral and vertical position of [p] *)
Definition only_x (p q : part) : Prop :=
  p_mass q = p_mass p /\ at_coordinate vy q = at_coordinate vy p /\ at_coordinate vz q = at_coordinate vz p.
(** everything but the main gear and the recorded centre of gravity agrees *)
Definition same_but_gear (v w : vehicle) : Prop :=
  v_wings w = v_wings v /\ v_networks w = v_networks v /\ v_fuselages w = v_fuselages v /\
  v_takeoff w = v_takeoff v /\ v_others w = v_others v /\
  exists g, v_systems w =
    (let s := v_systems v in
     Systems (avionics s) (furnishings s) (apu s) (passengers s) (baggage s) (cargo s) (air_conditioner s)
       (optionals s) (fuel s) (control_systems s) (electrical_systems s) (hydraulics s) g (nose_gear s)).
Definition vehicle_parts (v : vehicle) : list part := counted (attributes v).

(** ** Fuel *)
(** a way of putting fuel into the tanks: an amount for each, not more than it holds *)
Definition loading (tanks : list tank) (d : list (tank * R)) : Prop :=
  map fst d = tanks /\ Forall (fun q => 0 <= snd q <= t_full (fst q)) d.
Definition loaded (d : list (tank * R)) : R := summed snd d.
(** its centre of gravity *)
Definition loading_cg (d : list (tank * R)) : R := summed (fun q => t_cg (fst q) * snd q) d / loaded d.
