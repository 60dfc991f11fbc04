(** * Masses and centres of gravity: model

    Real numbers stand for the floats.  A component's centre_of_gravity attribute is a 1x3 array
    or the scalar 0.0, which broadcasts; both are a vector here. *)
From Coq Require Import Reals List Bool String.
From Verif Require Import M_Opt M_Rot M_Mission M_Wing.
Import ListNotations.
Local Open Scope R_scope.
Local Open Scope list_scope.

Definition v0 : v3 := V3 0 0 0.
Definition vtimes (k : R) (v : v3) : v3 := V3 (k * vx v) (k * vy v) (k * vz v).
Definition with_x (x : R) (v : v3) : v3 := V3 x (vy v) (vz v).
(** np.sum(np.array(origin),axis=0) *)
Definition vsum (l : list v3) : v3 := fold_left vplus l v0.

(** the attributes of trunk/SUAVE/Components/Physical_Component.py:50-53 and
    Mass_Properties.py:48-50 that matter here *)
Record part := Part { p_mass : R; p_origin : list v3; p_cg : v3 }.

(** what a container holds: a physical component (with whatever it holds itself: control
    surfaces, batteries, ...), another container, or anything else *)
Inductive item : Type :=
| Comp (p : part) (inner : list item)
| Box (l : list item)
| Other.

(** trunk/SUAVE/Components/Physical_Component.py:84-91 Container.sum_mass *)
Fixpoint item_mass (x : item) : R :=
  match x with
  | Box l => fold_left (fun total y => total + item_mass y) l 0
  | Comp p _ => p_mass p
  | Other => 0
  end.
(** Physical_Component.py:117; the model's [/] by zero origins is 0 where numpy has nan *)
Definition part_moment (p : part) : v3 :=
  vtimes (p_mass p) (vplus (vtimes (/ INR (List.length (p_origin p))) (vsum (p_origin p))) (p_cg p)).
(** Physical_Component.py:112-119 Container.total_moment *)
Fixpoint item_moment (x : item) : v3 :=
  match x with
  | Box l => fold_left (fun total y => vplus total (item_moment y)) l v0
  | Comp p _ => part_moment p
  | Other => v0
  end.

(** trunk/SUAVE/Vehicle.py:199-206 Vehicle.sum_mass: only the containers among the vehicle's
    attributes *)
Definition sum_mass (attributes : list item) : R :=
  fold_left (fun total y => match y with Box _ => total + item_mass y | _ => total end) attributes 0.
(** Vehicle.py:228-243 Vehicle.center_of_gravity; the value is also stored *)
Definition total_moment (attributes : list item) : v3 :=
  fold_left (fun total y => match y with Box _ => vplus total (item_moment y) | _ => total end) attributes v0.
Definition center_of_gravity (attributes : list item) : v3 :=
  let mass := sum_mass attributes in
  let mass := if Req_EM_T mass 0 then 1 else mass in
  vtimes (/ mass) (total_moment attributes).

(** ** Placing the components *)
(** the class of a wing, as far as isinstance distinguishes them in
    compute_component_centers_of_gravity.py:55-70 *)
Inductive wing_class := Main_wing | Horizontal_tail | Vertical_tail | Other_wing.
Record cg_wing := Cg_wing {
  cw_tag : string; cw_class : wing_class; cw_part : part; cw_mac : R; cw_center_x : R;
  cw_span : R; cw_root : R; cw_tip : R; cw_taper : R; cw_ar : R;
  cw_leading : option R; cw_quarter : R }.
(** a network with its own mass_properties and the Energy_Components among its attributes *)
Record network := Network { nw_part : part; nw_engine_length : R; nw_energy : list part }.
Record fuselage := Fuselage { fs_part : part; fs_total : R; fs_nose : R }.
(** the systems, payload and landing gear that the function needs *)
Record systems := Systems {
  avionics : part; furnishings : part; apu : part; passengers : part; baggage : part; cargo : part;
  air_conditioner : part; optionals : part; fuel : part; control_systems : part;
  electrical_systems : part; hydraulics : part; main_gear : part; nose_gear : part }.
Record vehicle := Vehicle {
  v_wings : list cg_wing; v_networks : list network; v_fuselages : list fuselage;
  v_systems : systems; v_takeoff : R;
  v_others : list item;  (* every other attribute of the vehicle *)
  v_cg : v3              (* mass_properties.center_of_gravity *) }.

(** trunk/SUAVE/Methods/Flight_Dynamics/Static_Stability/Approximations/Supporting_Functions/
    convert_sweep.py:58-82 with the fractions 0.25 and 0 used at line 53 *)
Definition quarter_to_leading (q taper ar : R) : R :=
  let le := atan (tan q + 4 * (1 / 4) * (1 - taper) / (ar * (1 + taper))) in
  atan (tan le - 4 * 0 * (1 - taper) / (ar * (1 + taper))).

Definition put_cg_x (x : R) (p : part) : part := Part (p_mass p) (p_origin p) (with_x x (p_cg p)).
Definition put_cg (c : v3) (p : part) : part := Part (p_mass p) (p_origin p) c.
(** origin[0][0] = x; None: IndexError *)
Definition put_origin_x (x : R) (p : part) : option part :=
  match p_origin p with
  | [] => None
  | o :: rest => Some (Part (p_mass p) (with_x x o :: rest) (p_cg p))
  end.
(** origin[0][0] = x and center_of_gravity[0][0] = c *)
Definition put_both (x c : R) (p : part) : option part := put_origin_x x (put_cg_x c p).

(** compute_component_centers_of_gravity.py:50-74; [chord_at] and [span_at] are those of M_Wing *)
Definition place_wing (w : cg_wing) : cg_wing :=
  let le := match cw_leading w with
            | Some s => s
            | None => quarter_to_leading (cw_quarter w) (cw_taper w) (cw_ar w)
            end in
  let x := match cw_class w with
           | Main_wing => 5 / 100 * cw_mac w + cw_center_x w
           | Horizontal_tail =>
               3 / 10 * chord_at (cw_root w) (cw_tip w) (cw_span w) (35 / 100 * cw_span w * (1 / 2))
               + tan (cw_quarter w) * (35 / 100) * (1 / 2) * cw_span w
           | Vertical_tail =>
               3 / 10 * chord_at (cw_root w) (cw_tip w) (cw_span w) (35 / 100 * cw_span w)
               + tan (cw_quarter w) * (35 / 100) * (1 / 2) * cw_span w
           | Other_wing =>
               3 / 10 * cw_mac w + tan le * span_at (cw_root w) (cw_tip w) (cw_span w) (cw_mac w)
           end in
  Cg_wing (cw_tag w) (cw_class w) (put_cg_x x (cw_part w)) (cw_mac w) (cw_center_x w) (cw_span w)
    (cw_root w) (cw_tip w) (cw_taper w) (cw_ar w) (Some le) (cw_quarter w).

(** lines 78-95 *)
Definition place_network (n : network) : network :=
  Network (put_cg_x (nw_engine_length n * (1 / 2)) (nw_part n)) (nw_engine_length n) (nw_energy n).
Definition add_energy (acc : v3 * R) (e : part) : v3 * R :=
  let '(moment, mass) := acc in
  (vplus moment (vtimes (p_mass e) (vplus (vsum (p_origin e)) (p_cg e))),
   mass + p_mass e * INR (List.length (p_origin e))).
Definition add_network (acc : v3 * R) (n : network) : v3 * R :=
  let '(moment, mass) := acc in
  let n := place_network n in
  let mass := mass + p_mass (nw_part n) in
  let moment := vplus moment (vtimes mass (vplus (vsum (p_origin (nw_part n))) (p_cg (nw_part n)))) in
  fold_left add_energy (nw_energy n) (moment, mass).
Definition propulsion_cg (l : list network) : v3 :=
  let '(moment, mass) := fold_left add_network l (v0, 0) in
  if Req_EM_T mass 0 then v0 else vtimes (/ mass) moment.

(** lines 98-99 *)
Definition place_fuselage (f : fuselage) : fuselage :=
  Fuselage (put_cg_x (45 / 100 * fs_total f) (fs_part f)) (fs_total f) (fs_nose f).
(** lines 106-123: length scale and nose length *)
Definition scales (v : vehicle) : R * R :=
  match v_fuselages v with
  | [] => fold_left (fun s w => match cw_class w with
                                | Main_wing => if Rltb (fst s) (cw_root w) then (cw_root w, 25 / 100 * cw_root w) else s
                                | _ => s
                                end) (v_wings v) (1, 0)
  | _ => fold_left (fun s f => if Rltb (fst s) (fs_total f) then (fs_total f, fs_nose f) else s) (v_fuselages v) (1, 0)
  end.

(** the attributes of the vehicle as Vehicle.sum_mass sees them; the systems, payload and landing
    gear boxes hold the named parts, everything else is in [v_others] *)
Definition system_items (s : systems) : list item :=
  [Box (map (fun p => Comp p [])
      [avionics s; furnishings s; apu s; air_conditioner s; optionals s; fuel s; control_systems s;
       electrical_systems s; hydraulics s]);
   Box (map (fun p => Comp p []) [passengers s; baggage s; cargo s]);
   Box (map (fun p => Comp p []) [main_gear s; nose_gear s])].
Definition attributes (v : vehicle) : list item :=
  [Box (map (fun f => Comp (fs_part f) []) (v_fuselages v));
   Box (map (fun w => Comp (cw_part w) []) (v_wings v));
   Box (map (fun n => Comp (nw_part n) (map (fun e => Comp e []) (nw_energy n))) (v_networks v))]
  ++ system_items (v_systems v) ++ v_others v.

(** vehicle.wings.main_wing *)
Definition find_main (l : list cg_wing) : option cg_wing :=
  find (fun w => String.eqb (cw_tag w) "main_wing"%string) l.

Notation "'do' x <- e ; k" := (match e with Some x => k | None => None end)
  (at level 200, x pattern, e at level 100, k at level 200).

(** lines 47-193; None: an exception (no wing, no main_wing, a system without an origin) *)
Definition place (v : vehicle) (nose_load : R) : option vehicle :=
  let wings := map place_wing (v_wings v) in
  let networks := map place_network (v_networks v) in
  let pcg := propulsion_cg (v_networks v) in
  let fuselages := map place_fuselage (v_fuselages v) in
  let '(length_scale, nose_length) := scales v in
  let s := v_systems v in
  do main <- find_main wings;
  do main_origin <- match p_origin (cw_part main) with [] => None | o :: _ => Some o end;
  do last_wing <- match rev wings with [] => None | w :: _ => Some w end;
  let main_cg := p_cg (cw_part main) in
  do avionics' <- put_both (4 / 10 * nose_length) 0 (avionics s);
  do furnishings' <- put_both (51 / 100 * length_scale) 0 (furnishings s);
  do apu' <- put_both (9 / 10 * length_scale) 0 (apu s);
  do passengers' <- put_both (51 / 100 * length_scale) 0 (passengers s);
  do baggage' <- put_both (51 / 100 * length_scale) 0 (baggage s);
  do cargo' <- put_both (51 / 100 * length_scale) 0 (cargo s);
  do air_conditioner' <- put_both nose_length 0 (air_conditioner s);
  do optionals' <- put_both (51 / 100 * length_scale) 0 (optionals s);
  do fuel' <- put_origin_x (vx main_origin) (put_cg main_cg (fuel s));
  do control_systems' <- put_both (vx main_origin) (vx main_cg + 1 / 10 * cw_mac main) (control_systems s);
  do electrical_systems' <- put_both (75 / 100 * (5 / 10 * length_scale) + vx pcg * (25 / 100)) 0 (electrical_systems s);
  do hydraulics' <- put_both (75 / 100 * (vx main_origin + vx (p_cg (cw_part last_wing)))
                              + 25 / 100 * length_scale * (95 / 100)) 0 (hydraulics s);
  do nose_gear' <- put_both (25 / 100 * nose_length) 0 (nose_gear s);
  let s' := Systems avionics' furnishings' apu' passengers' baggage' cargo' air_conditioner' optionals'
              fuel' control_systems' electrical_systems' hydraulics' (main_gear s) nose_gear' in
  let v1 := Vehicle wings networks fuselages s' (v_takeoff v) (v_others v) (v_cg v) in
  let cg := center_of_gravity (attributes v1) in
  let gear := p_mass (main_gear s) in
  let moment_sans_main := vx cg * (sum_mass (attributes v1) - gear) in
  let location := moment_sans_main / (v_takeoff v - gear) / (1 - nose_load) in
  do main_gear' <- put_origin_x location (put_cg v0 (main_gear s));
  let s'' := Systems avionics' furnishings' apu' passengers' baggage' cargo' air_conditioner' optionals'
              fuel' control_systems' electrical_systems' hydraulics' main_gear' nose_gear' in
  Some (Vehicle wings networks fuselages s'' (v_takeoff v) (v_others v) cg).

(** ** The range of the fuel's centre of gravity *)
Record tank := Tank { t_cg : R; t_full : R }.
(** list.sort(key=...) is stable: insertion of one element before the first with a larger key *)
Fixpoint insert_tank (t : tank) (l : list tank) : list tank :=
  match l with
  | [] => [t]
  | u :: r => if Rltb (t_cg u) (t_cg t) then u :: insert_tank t r else t :: l
  end.
(** sorted(l): equal keys keep their order, because insertion happens from the right *)
Fixpoint sort_tanks (l : list tank) : list tank :=
  match l with [] => [] | t :: r => insert_tank t (sort_tanks r) end.
(** compute_fuel_center_of_gravity_longitudinal_range.py:153-163 and 166-176: the tanks are filled
    in list order *)
Fixpoint fill (l : list tank) (remaining numer : R) : R :=
  match l with
  | [] => numer
  | t :: r =>
      if Req_EM_T remaining 0 then numer
      else if Rltb (t_full t) remaining then fill r (remaining - t_full t) (numer + t_cg t * t_full t)
      else fill r 0 (numer + t_cg t * remaining)
  end.
(** np.linspace(1e-6,max_mass): 50 values *)
Definition fuel_masses (total : R) : list R :=
  map (fun k => 1 / 1000000 + INR k * ((total - 1 / 1000000) / 49)) (seq 0 50).
(** lines 121-179: rows (fuel mass, least cg, greatest cg); [wing_tanks] and [fuse_tanks] are the
    tanks of each wing and of each fuselage *)
Definition fuel_range (wing_tanks fuse_tanks : list (list tank)) : list (R * R * R) :=
  let tanks := sort_tanks (List.concat wing_tanks ++ List.concat fuse_tanks) in
  let max_mass := fold_left (fun s t => s + t_full t) tanks 0 in
  map (fun m => (m, fill tanks m 0 / m, fill (rev tanks) m 0 / m)) (fuel_masses max_mass).

(** compute_mission_center_of_gravity.py:33-40 *)
Definition mission_cg (mzf_cg fuel_cg fuel_origin : v3) (mzf_weight fuel_weight : R) : v3 :=
  vtimes (/ (fuel_weight + mzf_weight))
    (vplus (vtimes mzf_weight mzf_cg) (vtimes fuel_weight (vplus fuel_cg fuel_origin))).
