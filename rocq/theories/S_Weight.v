(** * Weight estimation: vocabulary of the properties *)
From Coq Require Import Reals List Bool Arith.
From Verif Require Import PyBase M_Elec S_Elec M_Weight.
Import ListNotations.
Local Open Scope R_scope.

(** the sum of the masses given to components; components that get none count as nothing *)
Definition masses (l : list (option R)) : R := sum_over (fun o => match o with Some x => x | None => 0 end) l.
(** the masses given to the components of a list that satisfy [p] *)
Fixpoint masses_of {A} (p : A -> bool) (l : list A) (ms : list (option R)) : R :=
  match l, ms with
  | a :: l', m :: ms' => (if p a then match m with Some x => x | None => 0 end else 0) + masses_of p l' ms'
  | _, _ => 0
  end.
Definition is_h (w : wing) : bool := match w_kind w with HorizontalTail => true | _ => false end.
Definition is_v (w : wing) : bool := match w_kind w with VerticalTail => true | _ => false end.
(** everything the estimate stores in mass_properties of the vehicle's components *)
Definition all_stored (x : stored) : R :=
  masses (x_nets x) + masses (x_wings x) + sum_over (fun m => m) (x_fuses x) + x_pax x + x_bag x + x_cargo x
  + x_ctrl x + x_elec x + x_avi x + x_furn x + x_ac x + x_fuel x + x_apu x + x_hyd x + x_opt x.
(** items of a statement, each once *)
Definition structure_items (e : statement) : R :=
  e_wing e + e_htail e + e_vtail e + e_fuse e + e_main_gear e + e_nose_gear e + e_nacelle e + e_paint e.
Definition system_items (e : statement) : R :=
  e_ctrl e + e_apu e + e_elec e + e_avi e + e_hyd e + e_furn e + e_ac e + e_instr e.
Definition payload_items (p : payload) : R := p_pax p + p_bag p + p_cargo p.
Definition oper_sum (o : opitems) : R := o_items o + o_crew o + o_att o.
Definition prop_items (e : statement) : R := e_engines e + e_reversers e + e_misc e + e_fuel_system e.
(** a correlation for the propulsion system whose total is the sum of its parts, nacelles among them *)
Definition parts_add_up (k : book) : Prop :=
  forall v n, let d := k_prop k v n in q_prop d = q_eng d + q_rev d + q_ctrl d + q_start d + q_fuel d + q_nac d.
(** payload and operating items add up *)
Definition closes_payload (k : book) : Prop := forall v, p_total (k_payload k v) = payload_items (k_payload k v).
Definition closes_oper (k : book) : Prop := forall v, o_total (k_oper k v) = oper_sum (k_oper k v).
(** the same vehicle with other numbers *)
Definition with_pax (n : R) (v : vehicle) : vehicle :=
  Vehicle (v_mtow v) (v_mzf v) (v_cargo v) n (v_sref v) (v_nult v) (v_nlim v) (v_acc v) (v_control v) (v_mach v) (v_range v) (v_alt v)
    (v_wings v) (v_fuses v) (v_nets v) (v_nacelles v).
Definition with_mtow (x : R) (v : vehicle) : vehicle :=
  Vehicle x (v_mzf v) (v_cargo v) (v_pax v) (v_sref v) (v_nult v) (v_nlim v) (v_acc v) (v_control v) (v_mach v) (v_range v) (v_alt v)
    (v_wings v) (v_fuses v) (v_nets v) (v_nacelles v).
Definition with_span (x : R) (w : wing) : wing :=
  Wing (w_kind w) x (w_taper w) (w_sweep w) (w_area w) (w_tc w) (w_root w) (w_mac w) (w_ac w) (w_exposed w) (w_wetted w) (w_ar w) (w_ttail w)
    (w_flap w) (w_segs w) (w_tanks w).
Definition with_tc (x : R) (w : wing) : wing :=
  Wing (w_kind w) (w_span w) (w_taper w) (w_sweep w) (w_area w) x (w_root w) (w_mac w) (w_ac w) (w_exposed w) (w_wetted w) (w_ar w) (w_ttail w)
    (w_flap w) (w_segs w) (w_tanks w).
Definition with_taper (x : R) (w : wing) : wing :=
  Wing (w_kind w) (w_span w) x (w_sweep w) (w_area w) (w_tc w) (w_root w) (w_mac w) (w_ac w) (w_exposed w) (w_wetted w) (w_ar w) (w_ttail w)
    (w_flap w) (w_segs w) (w_tanks w).
Definition with_t (x : t_tail) (w : wing) : wing :=
  Wing (w_kind w) (w_span w) (w_taper w) (w_sweep w) (w_area w) (w_tc w) (w_root w) (w_mac w) (w_ac w) (w_exposed w) (w_wetted w) (w_ar w) x
    (w_flap w) (w_segs w) (w_tanks w).
(** a surface whose weight formula makes sense: positive area, span and thickness, taper not negative, sweep below a right angle *)
Definition plausible (w : wing) : Prop :=
  0 < w_area w /\ 0 < w_span w /\ 0 < w_tc w /\ 0 <= w_taper w /\ - (PI / 2) < w_sweep w < PI / 2.
(** [v] is the integral of [f] from [a] to [b]: an antiderivative inside, continuous up to the ends *)
Definition integral_on (f : R -> R) (a b v : R) : Prop :=
  exists F, (forall t, a <= t <= b -> continuity_pt F t) /\ (forall t, a < t < b -> derivable_pt_lim F t (f t)) /\ F b - F a = v.
(** elliptic lift at the fraction [y] of the semispan; [v] is the moment, about the station [c], of the lift outboard of the station [x] *)
Definition elliptic (y : R) : R := sqrt (1 - y * y).
Definition outboard_moment (c x v : R) : Prop := integral_on (fun y => (y - c) * elliptic y) x 1 v.
