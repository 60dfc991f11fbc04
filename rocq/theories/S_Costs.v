(** * Vocabulary: costs *)
From Coq Require Import Reals List Bool Arith String.
From Verif Require Import PyBase M_Opt M_Drag M_Costs.
Import ListNotations.
Local Open Scope R_scope.
Local Open Scope list_scope.
Fixpoint sum (l : list R) : R := match l with [] => 0 | x :: r => x + sum r end.
Definition known_types : list string := ["military"; "general aviation"; "regional"; "commercial"; "business"]%string.
Definition items (o : once) : list R := [o_engineering o; o_support o; o_test o; o_engines o; o_avionics o; o_tooling o; o_tooling_production o; o_labor o; o_material o; o_quality o; o_test_facilities o; o_plant o].
Definition unit_items (e : each) : list R := [e_engineering e; e_interior e; e_labor e; e_material e; e_quality e; e_engines e; e_avionics e].
(** amounts that are not negative, prototypes fewer than aircraft built, a year for which the hourly rates are positive *)
Record sane (p : program) : Prop := {
  n_year : 1967 <= p_year p; n_proto : 0 < p_prototypes p <= p_units p; n_avionics : 0 <= p_avionics p; n_test : 0 <= p_test p; n_plant : 0 <= p_plant p; n_diff : 0 <= p_diff p; n_cad : 0 <= p_cad p;
  n_stealth : 0 <= p_stealth p; n_material : 0 <= p_material p; n_weight : 0 <= p_weight p; n_engines : 0 <= p_engines p; n_thrust : 0 <= p_thrust p; n_pax : 0 <= p_pax p; n_mach : 0 <= p_mach p }.
(** another programme of the same size, type and year that is nowhere smaller *)
Record no_less (p p' : program) : Prop := {
  l_year : p_year p' = p_year p; l_units : p_units p' = p_units p; l_amortize : p_amortize p' = p_amortize p; l_prototypes : p_prototypes p' = p_prototypes p; l_type : p_type p' = p_type p;
  l_avionics : p_avionics p <= p_avionics p'; l_test : p_test p <= p_test p'; l_plant : p_plant p <= p_plant p'; l_diff : p_diff p <= p_diff p'; l_cad : p_cad p <= p_cad p'; l_stealth : p_stealth p <= p_stealth p';
  l_material : p_material p <= p_material p'; l_weight : p_weight p <= p_weight p'; l_engines : p_engines p <= p_engines p'; l_thrust : p_thrust p <= p_thrust p'; l_pax : p_pax p <= p_pax p'; l_mach : p_mach p <= p_mach p' }.
(** the same programme with another number of aircraft *)
Definition building (m : R) (p : program) : program :=
  {| p_year := p_year p; p_units := m; p_amortize := p_amortize p; p_prototypes := p_prototypes p; p_years := p_years p; p_type := p_type p; p_avionics := p_avionics p; p_test := p_test p; p_plant := p_plant p;
     p_diff := p_diff p; p_cad := p_cad p; p_stealth := p_stealth p; p_material := p_material p; p_weight := p_weight p; p_engines := p_engines p; p_thrust := p_thrust p; p_pax := p_pax p; p_mach := p_mach p |}.
