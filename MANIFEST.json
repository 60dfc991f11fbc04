{
 "claims": [
  {
   "property": "C01",
   "status": "proved",
   "theorems": [
    "C01_update_lookup",
    "C01_update_keys",
    "C01_update_type_error",
    "C01_update_override",
    "C01_update_frame"
   ],
   "note": "Models `Data` as an insertion-ordered association tree; `update` with the try/except that decides between merging and assigning. Not modelled: sharing of one python object under two keys."
  },
  {
   "property": "C02",
   "status": "proved",
   "theorems": [
    "C02_update_idempotent",
    "C02_update_self",
    "C02_init_public"
   ],
   "note": "Models `update`, construction from a dictionary. Not modelled: as C01."
  },
  {
   "property": "C03",
   "status": "proved",
   "theorems": [
    "C03_append",
    "C03_normalised",
    "C03_normalise_idempotent"
   ],
   "note": "Models the translation table for tags, `append`. Not modelled: characters outside the table are ASCII only."
  },
  {
   "property": "C04",
   "status": "proved",
   "theorems": [
    "C04_history",
    "C04_step",
    "C04_fresh",
    "C04_numbered",
    "C04_extend_list_refuted",
    "C04_append_always_succeeds_refuted"
   ],
   "note": "Models `Container.append` with an oracle for `random.randint`. Stronger claims shown false of the code: C04_extend_list_refuted, C04_append_always_succeeds_refuted."
  },
  {
   "property": "C05",
   "status": "proved",
   "theorems": [
    "C05_deep_set_get",
    "C05_deep_set_frame",
    "C05_deep_set_total",
    "C05_dotted",
    "C05_index_set_get",
    "C05_index_set_frame"
   ],
   "note": "Models `deep_set`, `deep_get`, dotted paths."
  },
  {
   "property": "C06",
   "status": "proved",
   "theorems": [
    "C06_unpack_after_pack",
    "C06_pack_after_unpack",
    "C06_packed_length",
    "C06_long_vector",
    "C06_warning_exact",
    "C06_short_vector_fails_refuted"
   ],
   "note": "Models `pack_array`/`unpack_array` over trees of scalars, 0-d arrays, vectors, matrices, foreign objects. Not modelled: dtype conversion on assignment. Stronger claims shown false of the code: C06_short_vector_fails_refuted."
  },
  {
   "property": "C07",
   "status": "proved",
   "theorems": [
    "C07_unpack_after_pack",
    "C07_pack_after_unpack",
    "C07_scalar_refuted",
    "C07_rows_refuted"
   ],
   "note": "Models array mode of both. Not modelled: as C06. Stronger claims shown false of the code: C07_scalar_refuted, C07_rows_refuted."
  },
  {
   "property": "C08",
   "status": "proved",
   "theorems": [
    "C08_keys",
    "C08_keys_distinct",
    "C08_items",
    "C08_get",
    "C08_get_int",
    "C08_set_succeeds",
    "C08_del_succeeds",
    "C08_len",
    "C08_len_refuted"
   ],
   "note": "Models `DataOrdered`: heap of doubly linked nodes, map and attribute dictionary. Not modelled: keys that are data descriptors of the class; recursive update. Stronger claims shown false of the code: C08_len_refuted."
  },
  {
   "property": "C09",
   "status": "proved",
   "theorems": [
    "C09_append_overwrites",
    "C09_append_error",
    "C09_distinct_kept"
   ],
   "note": "Models `DataOrdered.append`. Not modelled: as C08."
  },
  {
   "property": "C10",
   "status": "proved",
   "theorems": [
    "C10_restore",
    "C10_chain",
    "C10_override_kept",
    "C10_base_propagates",
    "C10_new_base_entry",
    "C10_deleted_becomes_none",
    "C10_broadcast_refuted"
   ],
   "note": "Models `diff`, `store_diff`, `pull_base`, arbitrary equality test and set order. Not modelled: aliasing between configuration and base; DataOrdered branches that repeat the Data ones. Stronger claims shown false of the code: C10_broadcast_refuted."
  },
  {
   "property": "C11",
   "status": "proved",
   "theorems": [
    "C11_concatenation",
    "C11_row_offsets",
    "C11_new_entry",
    "C11_private_skipped",
    "C11_absent_kept",
    "C11_mismatch_discards_history_refuted",
    "C11_array_over_scalar_refuted"
   ],
   "note": "Models `append_or_update`, `append_array`, merging a container of segments. Stronger claims shown false of the code: C11_mismatch_discards_history_refuted, C11_array_over_scalar_refuted."
  },
  {
   "property": "C12",
   "status": "proved",
   "theorems": [
    "C12_expanded",
    "C12_kept",
    "C12_others_untouched",
    "C12_placeholder",
    "C12_succeeds",
    "C12_idempotent",
    "C12_state",
    "C12_idempotent_refuted"
   ],
   "note": "Models `expand_rows` of Conditions and State. Stronger claims shown false of the code: C12_idempotent_refuted."
  },
  {
   "property": "C13",
   "status": "proved",
   "theorems": [
    "C13_runs_all_once",
    "C13_succeeds",
    "C13_stops_at_first_error"
   ],
   "note": "Models `Process.evaluate` with arbitrary steps that change state and may raise. Not modelled: printing."
  },
  {
   "property": "C14",
   "status": "proved",
   "theorems": [
    "C14_scale_inputs",
    "C14_limit_inputs",
    "C14_limit_idempotent",
    "C14_convert",
    "C14_crossed_bounds_refuted",
    "C14_set_values",
    "C14_get_values",
    "C14_two_aliases_refuted",
    "C14_missing_alias_refuted",
    "C14_star_position_refuted"
   ],
   "note": "Models scaling, limiting, unit conversion, `set_values`/`get_values` with alias tables and wild cards. Not modelled: broadcasting of a length-one vector. Stronger claims shown false of the code: C14_crossed_bounds_refuted, C14_two_aliases_refuted, C14_missing_alias_refuted, C14_star_position_refuted."
  },
  {
   "property": "C15",
   "status": "proved",
   "theorems": [
    "C15_transparent",
    "C15_runs_exactly_when",
    "C15_after_exception_refuted"
   ],
   "note": "Models `Nexus.evaluate` with its cache, a procedure that may raise. Stronger claims shown false of the code: C15_after_exception_refuted."
  },
  {
   "property": "C16",
   "status": "proved",
   "theorems": [
    "C16_sign",
    "C16_enforced_bound",
    "C16_equality",
    "C16_scale_refuted",
    "C16_unknown_sense_refuted",
    "C16_no_constraints"
   ],
   "note": "Models `inequality_constraint`, `equality_constraint`, scaling of bounds. Stronger claims shown false of the code: C16_scale_refuted, C16_unknown_sense_refuted."
  },
  {
   "property": "C17",
   "status": "proved",
   "theorems": [
    "C17_gradient_exact",
    "C17_jacobian_exact",
    "C17_points",
    "C17_cost",
    "C17_cost_table",
    "C17_error_bound"
   ],
   "note": "Models `finite_difference`."
  },
  {
   "property": "C18",
   "status": "proved",
   "theorems": [
    "C18_value_objective",
    "C18_value_constraints",
    "C18_gradient_objective",
    "C18_gradient_constraints",
    "C18_affine_objective",
    "C18_affine_constraints"
   ],
   "note": "Models correction and corrected model."
  },
  {
   "property": "C19",
   "status": "proved",
   "theorems": [
    "C19_stops",
    "C19_radius_positive",
    "C19_steps",
    "C19_centres",
    "C19_region_nonempty",
    "C19_radius_rule",
    "C19_returns_rejected_refuted",
    "C19_leaves_bounds_refuted",
    "C19_cycles_refuted"
   ],
   "note": "Models the trust-region loop with an arbitrary sub-optimiser. Not modelled: plotting and printing. Stronger claims shown false of the code: C19_returns_rejected_refuted, C19_leaves_bounds_refuted, C19_cycles_refuted."
  },
  {
   "property": "C20",
   "status": "proved",
   "theorems": [
    "C20_chained",
    "C20_elapsed",
    "C20_start",
    "C20_battery",
    "C20_battery_state",
    "C20_height",
    "C20_landing_mass_refuted"
   ],
   "note": "Models initialisation functions of a segment and the mission loop over any list of segments. Not modelled: stability and noise results, which nothing else reads. Stronger claims shown false of the code: C20_landing_mass_refuted."
  },
  {
   "property": "C21",
   "status": "proved",
   "theorems": [
    "C21_partition",
    "C21_merge_then_unpack",
    "C21_succeeds",
    "C21_two_columns_refuted"
   ],
   "note": "Models `unpack_subsegments`, `merge`. Stronger claims shown false of the code: C21_two_columns_refuted."
  },
  {
   "property": "C22",
   "status": "proved",
   "theorems": [
    "C22_scaling",
    "C22_time"
   ],
   "note": "Models `update_differentials_time`."
  },
  {
   "property": "C23",
   "status": "proved",
   "theorems": [
    "C23_mass",
    "C23_weight",
    "C23_bounded",
    "C23_between",
    "C23_fuel",
    "C23_fuel_total",
    "C23_frame"
   ],
   "note": "Models `update_weights`, fuel bookkeeping."
  },
  {
   "property": "C24",
   "status": "proved",
   "theorems": [
    "C24_rotation",
    "C24_norm",
    "C24_defined",
    "C24_sequence",
    "C24_product",
    "C24_axis",
    "C24_angles_add",
    "C24_nose",
    "C24_wing"
   ],
   "note": "Models direction cosine matrices and products, every supported sequence."
  },
  {
   "property": "C25",
   "status": "proved",
   "theorems": [
    "C25_drag",
    "C25_lift",
    "C25_angles",
    "C25_total",
    "C25_sum",
    "C25_sizes",
    "C25_sideslip_refuted",
    "C25_bank_refuted"
   ],
   "note": "Models `update_orientations`, `update_forces`. Stronger claims shown false of the code: C25_sideslip_refuted, C25_bank_refuted."
  },
  {
   "property": "C26",
   "status": "proved",
   "theorems": [
    "C26_freestream",
    "C26_limit",
    "C26_no_flow",
    "C26_coefficients",
    "C26_negative_limit_refuted"
   ],
   "note": "Models `update_aerodynamics`, `update_freestream` for an arbitrary aerodynamics analysis. Stronger claims shown false of the code: C26_negative_limit_refuted."
  },
  {
   "property": "C27",
   "status": "proved",
   "theorems": [
    "C27_start",
    "C27_inherit",
    "C27_altitude",
    "C27_level",
    "C27_seam_refuted",
    "C27_speed",
    "C27_rate",
    "C27_clock",
    "C27_mach",
    "C27_equivalent",
    "C27_calibrated",
    "C27_pressure",
    "C27_slope",
    "C27_distance",
    "C27_cruise",
    "C27_cruise_mach",
    "C27_loiter",
    "C27_loiter_speed",
    "C27_accelerate",
    "C27_cruise_pressure",
    "C27_pressure_time",
    "C27_hover_vertical",
    "C27_pressure_refuted"
   ],
   "note": "Models the condition-initialising functions of climb, descent, cruise, loiter and hover segments inside an evaluated mission. Stronger claims shown false of the code: C27_seam_refuted, C27_pressure_refuted."
  },
  {
   "property": "C28",
   "status": "proved",
   "theorems": [
    "C28_pitch_rate",
    "C28_again_refuted",
    "C28_inherit",
    "C28_transition",
    "C28_climb_transition",
    "C28_transition_start_refuted"
   ],
   "note": "Models pitch-rate and transition segments. Stronger claims shown false of the code: C28_again_refuted, C28_transition_start_refuted."
  },
  {
   "property": "C29",
   "status": "proved",
   "theorems": [
    "C29_area",
    "C29_round_trip",
    "C29_mac",
    "C29_sweep",
    "C29_center",
    "C29_extent",
    "C29_flap",
    "C29_one_sided_refuted"
   ],
   "note": "Models `wing_planform`. Stronger claims shown false of the code: C29_one_sided_refuted."
  },
  {
   "property": "C30",
   "status": "proved",
   "theorems": [
    "C30_defined",
    "C30_area",
    "C30_mac",
    "C30_mac_bounds",
    "C30_sweep",
    "C30_center",
    "C30_moments_exist",
    "C30_divided",
    "C30_trapezoid",
    "C30_segments",
    "C30_thickness",
    "C30_thickness_refuted",
    "C30_wetted_refuted",
    "C30_vertical_refuted"
   ],
   "note": "Models `wing_segmented_planform` for any number of segments. Stronger claims shown false of the code: C30_thickness_refuted, C30_wetted_refuted, C30_vertical_refuted."
  },
  {
   "property": "C31",
   "status": "proved",
   "theorems": [
    "C31_parts",
    "C31_whole",
    "C31_lost_refuted"
   ],
   "note": "Models `populate_control_sections`. Stronger claims shown false of the code: C31_lost_refuted."
  },
  {
   "property": "C32",
   "status": "proved",
   "theorems": [
    "C32_chord",
    "C32_inverse",
    "C32_untapered",
    "C32_mean_station"
   ],
   "note": "Models chord-from-span and span-from-chord."
  },
  {
   "property": "C33",
   "status": "proved",
   "theorems": [
    "C33_mass",
    "C33_cg",
    "C33_hull",
    "C33_order",
    "C33_lump",
    "C33_moved",
    "C33_massless",
    "C33_cancelled",
    "C33_inside_refuted",
    "C33_loose_refuted"
   ],
   "note": "Models `sum_mass`, `total_moment`, `center_of_gravity` over nested containers. Stronger claims shown false of the code: C33_inside_refuted, C33_loose_refuted."
  },
  {
   "property": "C34",
   "status": "proved",
   "theorems": [
    "C34_single",
    "C34_error",
    "C34_networks_refuted",
    "C34_origins_refuted",
    "C34_longest",
    "C34_positions",
    "C34_main",
    "C34_wings",
    "C34_vertical_refuted",
    "C34_mass_kept",
    "C34_gear",
    "C34_again",
    "C34_drift",
    "C34_again_refuted"
   ],
   "note": "Models `compute_component_centers_of_gravity`, field by field. Not modelled: the values of handbook fractions are constants of the model. Stronger claims shown false of the code: C34_networks_refuted, C34_origins_refuted, C34_vertical_refuted, C34_again_refuted."
  },
  {
   "property": "C35",
   "status": "proved",
   "theorems": [
    "C35_range",
    "C35_masses",
    "C35_full",
    "C35_mission"
   ],
   "note": "Models sorting of tanks, two filling schedules."
  },
  {
   "property": "C36",
   "status": "proved",
   "theorems": [
    "C36_rows",
    "C36_altitude",
    "C36_below",
    "C36_above",
    "C36_temperature",
    "C36_breaks",
    "C36_continuous",
    "C36_bounds",
    "C36_falls",
    "C36_hydrostatic",
    "C36_deviation",
    "C36_positive",
    "C36_gas",
    "C36_balance_refuted",
    "C36_pressure_refuted",
    "C36_centre_refuted"
   ],
   "note": "Models `compute_values` with table, clamping and layers. Stronger claims shown false of the code: C36_balance_refuted, C36_pressure_refuted, C36_centre_refuted."
  },
  {
   "property": "C37",
   "status": "proved",
   "theorems": [
    "C37_gravity",
    "C37_density",
    "C37_viscosity",
    "C37_sutherland",
    "C37_conductivity",
    "C37_sound",
    "C37_gamma",
    "C37_flight"
   ],
   "note": "Models Earth gravity, Air properties, free-stream relations."
  },
  {
   "property": "C38",
   "status": "proved",
   "theorems": [
    "C38_total",
    "C38_none",
    "C38_nodes",
    "C38_differentiates",
    "C38_rows",
    "C38_integrates",
    "C38_first",
    "C38_recovers",
    "C38_mission",
    "C38_linear_small",
    "C38_linear_refuted",
    "C38_linear_affine"
   ],
   "note": "Models `chebyshev_data`, `linear_data`; inverse as a parameter that satisfies the inverse law. Not modelled: N=1 (division of 0 by 0). Stronger claims shown false of the code: C38_linear_refuted."
  },
  {
   "property": "C39",
   "status": "proved",
   "theorems": [
    "C39_ends",
    "C39_range",
    "C39_falls",
    "C39_smooth",
    "C39_symmetric",
    "C39_soft_max",
    "C39_soft_bounds",
    "C39_soft_up"
   ],
   "note": "Models `Cubic_Spline_Blender`, `soft_max`."
  },
  {
   "property": "C40",
   "status": "proved",
   "theorems": [
    "C40_cell",
    "C40_between",
    "C40_nodes",
    "C40_exact",
    "C40_outside",
    "C40_fill"
   ],
   "note": "Models `interp2d`."
  },
  {
   "property": "C41",
   "status": "proved",
   "theorems": [
    "C41_charge",
    "C41_balance",
    "C41_full",
    "C41_over_refuted",
    "C41_empty_refuted",
    "C41_voltage",
    "C41_full_voltage",
    "C41_losses",
    "C41_load",
    "C41_throughput",
    "C41_heat",
    "C41_nmc_charge",
    "C41_nmc_balance",
    "C41_nmc_full",
    "C41_nmc_losses",
    "C41_nmc_losses_refuted",
    "C41_nmc_voltage",
    "C41_nmc_throughput",
    "C41_nmc_throughput_refuted"
   ],
   "note": "Models `energy_calc` of Lithium_Ion and of the NMC 18650 cell. Not modelled: branches for \"not a number\". Stronger claims shown false of the code: C41_over_refuted, C41_empty_refuted, C41_nmc_losses_refuted, C41_nmc_throughput_refuted."
  },
  {
   "property": "C42",
   "status": "proved",
   "theorems": [
    "C42_irreversible",
    "C42_day",
    "C42_worst",
    "C42_gentle",
    "C42_costs",
    "C42_positive_refuted"
   ],
   "note": "Models `update_battery_state`. Stronger claims shown false of the code: C42_positive_refuted."
  },
  {
   "property": "C43",
   "status": "proved",
   "theorems": [
    "C43_meets",
    "C43_least",
    "C43_scales",
    "C43_soft_refuted",
    "C43_ragone",
    "C43_ragone_best",
    "C43_ragone_optimum",
    "C43_cells",
    "C43_cells_refuted",
    "C43_circuit",
    "C43_again"
   ],
   "note": "Models sizing functions. Stronger claims shown false of the code: C43_soft_refuted, C43_cells_refuted."
  },
  {
   "property": "C44",
   "status": "proved",
   "theorems": [
    "C44_energy",
    "C44_unique",
    "C44_loudest",
    "C44_most",
    "C44_order",
    "C44_groups",
    "C44_equal",
    "C44_monotone",
    "C44_shift",
    "C44_pressures",
    "C44_bands",
    "C44_bands_total",
    "C44_edge_refuted",
    "C44_attenuation",
    "C44_weighted"
   ],
   "note": "Models decibel arithmetic, third-octave bands, attenuation, A-weighting. Stronger claims shown false of the code: C44_edge_refuted."
  },
  {
   "property": "C45",
   "status": "proved",
   "theorems": [
    "C45_first",
    "C45_bounds",
    "C45_straight",
    "C45_tone",
    "C45_gap_refuted",
    "C45_later_refuted"
   ],
   "note": "Models tone correction. Stronger claims shown false of the code: C45_gap_refuted, C45_later_refuted."
  },
  {
   "property": "C46",
   "status": "proved",
   "theorems": [
    "C46_round_trip",
    "C46_again",
    "C46_failure",
    "C46_keys_refuted",
    "C46_method_refuted",
    "C46_list_refuted"
   ],
   "note": "Models `archive`, `load` and the file system as a map. Not modelled: the json library is trusted to write and read back values. Stronger claims shown false of the code: C46_keys_refuted, C46_method_refuted, C46_list_refuted."
  },
  {
   "property": "C47",
   "status": "proved",
   "theorems": [
    "C47_start",
    "C47_bounds",
    "C47_negative_scale_refuted",
    "C47_pyopt_constraints",
    "C47_de_last_constraint",
    "C47_de_refuted",
    "C47_de_equality_refuted",
    "C47_violation",
    "C47_trmm_slsqp",
    "C47_trmm_slsqp_refuted"
   ],
   "note": "Models what SciPy_Solve, Pyopt_Solve and the TRMM set-up hand to the solver. Not modelled: the solvers themselves. Stronger claims shown false of the code: C47_negative_scale_refuted, C47_de_refuted, C47_de_equality_refuted, C47_trmm_slsqp_refuted."
  },
  {
   "property": "C48",
   "status": "proved",
   "theorems": [
    "C48_within_bounds",
    "C48_result",
    "C48_improves_start",
    "C48_best_visited",
    "C48_feasible_point_ignored_refuted"
   ],
   "note": "Models the particle swarm with arbitrary draws. Stronger claims shown false of the code: C48_feasible_point_ignored_refuted."
  },
  {
   "property": "C49",
   "status": "proved",
   "theorems": [
    "C49_coherent",
    "C49_position"
   ],
   "note": "Models all segment processes together. Not modelled: analyses are arbitrary functions."
  },
  {
   "property": "C50",
   "status": "proved",
   "theorems": [
    "C50_rows",
    "C50_temperature",
    "C50_hydrostatic",
    "C50_gas",
    "C50_again",
    "C50_pressure_refuted"
   ],
   "note": "Models `Constant_Temperature.compute_values` including its overwriting of the table. Stronger claims shown false of the code: C50_pressure_refuted."
  },
  {
   "property": "C51",
   "status": "proved",
   "theorems": [
    "C51_slices",
    "C51_center",
    "C51_criterion"
   ],
   "note": "Models `latin_hypercube_sampling` with arbitrary draws and shuffles."
  },
  {
   "property": "C52",
   "status": "proved",
   "theorems": [
    "C52_ambient",
    "C52_balance",
    "C52_single",
    "C52_pack",
    "C52_fast_refuted"
   ],
   "note": "Models `compute_net_generated_battery_heat`. Stronger claims shown false of the code: C52_fast_refuted."
  },
  {
   "property": "C53",
   "status": "proved",
   "theorems": [
    "C53_floor",
    "C53_noisiest",
    "C53_last_band",
    "C53_gap_refuted",
    "C53_exposure",
    "C53_effective",
    "C53_shift",
    "C53_most",
    "C53_wrap_refuted",
    "C53_end_refuted"
   ],
   "note": "Models noys, PNL, EPNL, SENEL. Stronger claims shown false of the code: C53_gap_refuted, C53_wrap_refuted, C53_end_refuted."
  },
  {
   "property": "C54",
   "status": "proved",
   "theorems": [
    "C54_approach",
    "C54_flyover",
    "C54_sideline",
    "C54_moving_refuted",
    "C54_ground",
    "C54_buildings",
    "C54_uneven_refuted",
    "C54_base_refuted",
    "C54_relative"
   ],
   "note": "Models microphone positions and geometric relations. Stronger claims shown false of the code: C54_moving_refuted, C54_uneven_refuted, C54_base_refuted."
  },
  {
   "property": "C55",
   "status": "proved",
   "theorems": [
    "C55_wing",
    "C55_flap",
    "C55_gear",
    "C55_slat",
    "C55_flap_peak",
    "C55_slots_refuted",
    "C55_total",
    "C55_vertical_refuted",
    "C55_silent_refuted",
    "C55_units",
    "C55_last_refuted"
   ],
   "note": "Models Fink airframe noise per source and total. Stronger claims shown false of the code: C55_slots_refuted, C55_vertical_refuted, C55_silent_refuted, C55_last_refuted."
  },
  {
   "property": "C56",
   "status": "proved",
   "theorems": [
    "C56_heavier",
    "C56_double",
    "C56_shevell"
   ],
   "note": "Models certification limits, Shevell."
  },
  {
   "property": "C57",
   "status": "proved",
   "theorems": [
    "C57_ram",
    "C57_compressor",
    "C57_stages",
    "C57_combustor",
    "C57_turbine",
    "C57_inlet",
    "C57_inlet_shock"
   ],
   "note": "Models Ram, Compressor, Combustor, Turbine, Compression_Nozzle. Not modelled: array shapes; rayleigh and supersonic burners."
  },
  {
   "property": "C58",
   "status": "proved",
   "theorems": [
    "C58_first_law",
    "C58_exhausted",
    "C58_runs"
   ],
   "note": "Models Turbofan.evaluate_thrust as a chain of components. Not modelled: noise side outputs."
  },
  {
   "property": "C59",
   "status": "proved",
   "theorems": [
    "C59_nozzle",
    "C59_mass",
    "C59_supersonic"
   ],
   "note": "Models Expansion_Nozzle, Supersonic_Nozzle."
  },
  {
   "property": "C60",
   "status": "proved",
   "theorems": [
    "C60_momentum",
    "C60_throttle",
    "C60_fuel",
    "C60_no_number",
    "C60_idle_refuted"
   ],
   "note": "Models Thrust.compute. Stronger claims shown false of the code: C60_idle_refuted."
  },
  {
   "property": "C61",
   "status": "proved",
   "theorems": [
    "C61_design",
    "C61_again",
    "C61_independent",
    "C61_off_take_refuted"
   ],
   "note": "Models turbofan_sizing with Thrust.size. Stronger claims shown false of the code: C61_off_take_refuted."
  },
  {
   "property": "C62",
   "status": "proved",
   "theorems": [
    "C62_restored",
    "C62_results"
   ],
   "note": "Models Turbofan.engine_out."
  },
  {
   "property": "C63",
   "status": "proved",
   "theorems": [
    "C63_function",
    "C63_fraction"
   ],
   "note": "Models fm_id."
  },
  {
   "property": "C64",
   "status": "proved",
   "theorems": [
    "C64_normal",
    "C64_angle",
    "C64_weak",
    "C64_oblique",
    "C64_train",
    "C64_train_cut"
   ],
   "note": "Models normal and oblique shocks, wave angle, shock trains. Not modelled: the case 27a^2c+9ab-2=0, where the code divides by zero."
  },
  {
   "property": "C65",
   "status": "proved",
   "theorems": [
    "C65_off",
    "C65_burners",
    "C65_afterburner_refuted"
   ],
   "note": "Models Turbojet_Super.evaluate_thrust. Stronger claims shown false of the code: C65_afterburner_refuted."
  },
  {
   "property": "C66",
   "status": "proved",
   "theorems": [
    "C66_sum",
    "C66_order",
    "C66_missing",
    "C66_extra",
    "C66_extra_refuted",
    "C66_mixed_refuted"
   ],
   "note": "Models Network Container.evaluate_thrust. Stronger claims shown false of the code: C66_extra_refuted, C66_mixed_refuted."
  },
  {
   "property": "C67",
   "status": "proved",
   "theorems": [
    "C67_parasite",
    "C67_stored",
    "C67_total",
    "C67_segments",
    "C67_segment",
    "C67_wetted",
    "C67_vehicle",
    "C67_defined",
    "C67_order",
    "C67_again",
    "C67_tag_refuted",
    "C67_glider_refuted",
    "C67_places_refuted"
   ],
   "note": "Models the drag part of Fidelity_Zero evaluate: parasite drag of wings (with and without segments), fuselages, nacelles, pylons, parasite_total, induced_drag_aircraft, compressibility, excrescence, untrimmed, trim, spoiler, total; breakdown as a dictionary. Not modelled: one control point; recalculation of wetted areas of segments; propulsion drag. Stronger claims shown false of the code: C67_tag_refuted, C67_glider_refuted, C67_places_refuted."
  },
  {
   "property": "C68",
   "status": "proved",
   "theorems": [
    "C68_given",
    "C68_computed",
    "C68_span",
    "C68_viscous_refuted"
   ],
   "note": "Models induced_drag_aircraft. Stronger claims shown false of the code: C68_viscous_refuted."
  },
  {
   "property": "C69",
   "status": "proved",
   "theorems": [
    "C69_turbulent",
    "C69_factors",
    "C69_refused",
    "C69_ends",
    "C69_positive",
    "C69_laminar"
   ],
   "note": "Models compressible_turbulent_flat_plate, compressible_mixed_flat_plate. Not modelled: rounding."
  },
  {
   "property": "C70",
   "status": "proved",
   "theorems": [
    "C70_wing",
    "C70_wing_drag",
    "C70_fuselage",
    "C70_jump_refuted",
    "C70_nacelle"
   ],
   "note": "Models form factors of wing, fuselage, nacelle. Not modelled: unswept wing at exactly Mach 1 (0/0 in the code). Stronger claims shown false of the code: C70_jump_refuted."
  },
  {
   "property": "C71",
   "status": "proved",
   "theorems": [
    "C71_rise",
    "C71_thickness",
    "C71_lift",
    "C71_lift_refuted",
    "C71_excrescence",
    "C71_excrescence_refuted"
   ],
   "note": "Models compressibility_drag_wing, miscellaneous_drag_aircraft_ESDU. Stronger claims shown false of the code: C71_lift_refuted, C71_excrescence_refuted."
  },
  {
   "property": "C72",
   "status": "proved",
   "theorems": [
    "C72_limits",
    "C72_formula",
    "C72_refused",
    "C72_refused_error",
    "C72_user_refuted",
    "C72_sign_refuted",
    "C72_speeds",
    "C72_order",
    "C72_order_refuted",
    "C72_required"
   ],
   "note": "Models limit loads, stall/manoeuvre/cruise/dive speeds, gust speeds, with reals. Not modelled: atmosphere, lift-curve slope and unit conversion are inputs; log, result file and plots. Stronger claims shown false of the code: C72_user_refuted, C72_sign_refuted, C72_order_refuted."
  },
  {
   "property": "C73",
   "status": "proved",
   "theorems": [
    "C73_stall",
    "C73_closed",
    "C73_positive",
    "C73_negative",
    "C73_ascending",
    "C73_negative_refuted"
   ],
   "note": "Models the lists of speeds and load factors with every insertion at an index. Not modelled: the extra gust lines drawn at 1.05 times the dive speed. Stronger claims shown false of the code: C73_negative_refuted."
  },
  {
   "property": "C74",
   "status": "proved",
   "theorems": [
    "C74_sum",
    "C74_slat",
    "C74_flap",
    "C74_stowed_flap_refuted",
    "C74_unknown_flap_refuted",
    "C74_speed",
    "C74_reference",
    "C74_reference_refuted"
   ],
   "note": "Models slat and flap increments, clean maximum lift, loop over wings. Not modelled: the effective flap area comes in as a number. Stronger claims shown false of the code: C74_stowed_flap_refuted, C74_unknown_flap_refuted, C74_reference_refuted."
  },
  {
   "property": "C75",
   "status": "proved",
   "theorems": [
    "C75_stall",
    "C75_engines",
    "C75_takeoff",
    "C75_default_constants",
    "C75_thrust",
    "C75_clmax",
    "C75_count",
    "C75_climb",
    "C75_landing",
    "C75_landing_constants_refuted"
   ],
   "note": "Models stall speed, take-off index, series of constants, climb gradient, landing length. Not modelled: atmosphere, thrust, drag ratios are inputs; printing. Stronger claims shown false of the code: C75_landing_constants_refuted."
  },
  {
   "property": "C76",
   "status": "proved",
   "theorems": [
    "C76_range",
    "C76_accuracy",
    "C76_monotone",
    "C76_safe",
    "C76_convex",
    "C76_short_refuted",
    "C76_over_refuted"
   ],
   "note": "Models fifty weights, numpy interp, final masses. Not modelled: the field length is any function of the weight. Stronger claims shown false of the code: C76_short_refuted, C76_over_refuted."
  },
  {
   "property": "C77",
   "status": "proved",
   "theorems": [
    "C77_refused",
    "C77_corners",
    "C77_tanks",
    "C77_tanks_refuted",
    "C77_search",
    "C77_converges",
    "C77_linear",
    "C77_shared_refuted",
    "C77_electric"
   ],
   "note": "Models corners, correction loop over an arbitrary mission evaluator, the shared result object, electric version. Not modelled: plots, files, printing; the mission's own solution. Stronger claims shown false of the code: C77_tanks_refuted, C77_shared_refuted."
  },
  {
   "property": "C78",
   "status": "proved",
   "theorems": [
    "C78_geometry",
    "C78_round_trip",
    "C78_taper",
    "C78_wing",
    "C78_wing_refuted"
   ],
   "note": "Models both conversion functions. Not modelled: wings whose aspect ratio comes from further optional fields. Stronger claims shown false of the code: C78_wing_refuted."
  },
  {
   "property": "C79",
   "status": "proved",
   "theorems": [
    "C79_given",
    "C79_mac",
    "C79_no_chords",
    "C79_ac",
    "C79_ac_refuted",
    "C79_extend",
    "C79_extend_refuted"
   ],
   "note": "Models mean chord, aerodynamic centre, extension. Not modelled: the wing is taken as the numbers read from it. Stronger claims shown false of the code: C79_ac_refuted, C79_extend_refuted."
  },
  {
   "property": "C80",
   "status": "proved",
   "theorems": [
    "C80_subsonic",
    "C80_supersonic",
    "C80_sonic_refuted",
    "C80_history",
    "C80_history_refuted"
   ],
   "note": "Models slope at one Mach number, effect of an evaluation on the tail's stored geometry. Not modelled: arrays are one point at a time. Stronger claims shown false of the code: C80_sonic_refuted, C80_history_refuted."
  },
  {
   "property": "C81",
   "status": "proved",
   "theorems": [
    "C81_shift",
    "C81_neutral",
    "C81_reported",
    "C81_reported_refuted",
    "C81_surfaces",
    "C81_fuselage",
    "C81_zero",
    "C81_twist_refuted"
   ],
   "note": "Models loop over surfaces, fuselage share, static margin, neutral point. Not modelled: downwash, efficiency and section data come in as numbers. Stronger claims shown false of the code: C81_reported_refuted, C81_twist_refuted."
  },
  {
   "property": "C82",
   "status": "proved",
   "theorems": [
    "C82_refused",
    "C82_tail_factor",
    "C82_shares",
    "C82_fuselage",
    "C82_order_refuted"
   ],
   "note": "Models loop over fuselages, shares, tail factor, fin. Not modelled: the fin's slope and aerodynamic centre come in as numbers. Stronger claims shown false of the code: C82_order_refuted."
  },
  {
   "property": "C83",
   "status": "proved",
   "theorems": [
    "C83_roll_damping",
    "C83_dihedral_refuted",
    "C83_downwash",
    "C83_phugoid",
    "C83_dutch",
    "C83_roll",
    "C83_roll_refuted",
    "C83_short_period",
    "C83_spiral",
    "C83_yaw_damping",
    "C83_pitch_damping",
    "C83_lag"
   ],
   "note": "Models the formulas of the approximations and derivatives. Not modelled: the trivial derivatives (cl_r, cx_u, ...). Stronger claims shown false of the code: C83_dihedral_refuted, C83_roll_refuted."
  },
  {
   "property": "C84",
   "status": "proved",
   "theorems": [
    "C84_determinant",
    "C84_refused",
    "C84_modes",
    "C84_unstable_spiral",
    "C84_stable_refuted"
   ],
   "note": "Models numpy's polynomial product, sum and trimming; the determinant; sorting of complex roots; np.roots is any exact root finder. Not modelled: rounding of the root finder. Stronger claims shown false of the code: C84_stable_refuted."
  },
  {
   "property": "C85",
   "status": "proved",
   "theorems": [
    "C85_determinant",
    "C85_refused",
    "C85_factors",
    "C85_frequency",
    "C85_modes",
    "C85_exact_refuted"
   ],
   "note": "Models the determinant and the two division steps. Not modelled: divisions by zero inside the steps are excluded by hypothesis. Stronger claims shown false of the code: C85_exact_refuted."
  },
  {
   "property": "C86",
   "status": "proved",
   "theorems": [
    "C86_mass",
    "C86_dimensional",
    "C86_dimensional_lateral",
    "C86_incidence_rate_refuted",
    "C86_longitudinal",
    "C86_lateral",
    "C86_speed_refuted",
    "C86_inertia_refuted",
    "C86_numbers",
    "C86_labels",
    "C86_no_pair_refuted",
    "C86_vector_refuted"
   ],
   "note": "Models mass rule, both state matrices, dimensional derivatives, inertia, labels. Not modelled: np.linalg.eig; control-surface columns; storing of results. Stronger claims shown false of the code: C86_incidence_rate_refuted, C86_speed_refuted, C86_inertia_refuted, C86_no_pair_refuted, C86_vector_refuted."
  },
  {
   "property": "C87",
   "status": "proved",
   "theorems": [
    "C87_balance",
    "C87_voltage",
    "C87_load",
    "C87_low_voltage_refuted",
    "C87_low_voltage_cases",
    "C87_power",
    "C87_inverse",
    "C87_gearbox",
    "C87_unloaded_refuted"
   ],
   "note": "Models the closed formulas of Motor at one control point; not-a-number speeds become 0 as in the code. Not modelled: the propeller itself (Rotor.spin); arrays of control points. Stronger claims shown false of the code: C87_low_voltage_refuted, C87_unloaded_refuted."
  },
  {
   "property": "C88",
   "status": "proved",
   "theorems": [
    "C88_motor",
    "C88_limit",
    "C88_unreachable_refuted",
    "C88_ideal_refuted",
    "C88_propeller",
    "C88_rated",
    "C88_controller",
    "C88_controller_refuted",
    "C88_gears",
    "C88_gears_refuted",
    "C88_energy",
    "C88_energy_refuted"
   ],
   "note": "Models the low-fidelity converters, controller and network at one point. Not modelled: battery dynamics (C71). Stronger claims shown false of the code: C88_unreachable_refuted, C88_ideal_refuted, C88_controller_refuted, C88_gears_refuted, C88_energy_refuted."
  },
  {
   "property": "C89",
   "status": "proved",
   "theorems": [
    "C89_available",
    "C89_altitude",
    "C89_power",
    "C89_inverse",
    "C89_ceiling_refuted",
    "C89_standard",
    "C89_jump_refuted"
   ],
   "note": "Models both methods; the density law is a parameter, instantiated with the modelled standard atmosphere. Not modelled: none. Stronger claims shown false of the code: C89_ceiling_refuted, C89_jump_refuted."
  },
  {
   "property": "C90",
   "status": "proved",
   "theorems": [
    "C90_single",
    "C90_sum",
    "C90_identical",
    "C90_battery",
    "C90_efficiency_refuted",
    "C90_columns_refuted",
    "C90_lift_cruise",
    "C90_charging",
    "C90_piston",
    "C90_piston_identical",
    "C90_constant_speed_refuted",
    "C90_solar"
   ],
   "note": "Models the loops over units with force, power and current totals and columns; the propeller is any function of speed. Not modelled: wakes and noise data; the propeller's own model; residuals (C23). Stronger claims shown false of the code: C90_efficiency_refuted, C90_columns_refuted, C90_constant_speed_refuted."
  },
  {
   "property": "C91",
   "status": "proved",
   "theorems": [
    "C91_zenith",
    "C91_clock",
    "C91_noon",
    "C91_declination",
    "C91_path",
    "C91_higher",
    "C91_path_refuted",
    "C91_flux",
    "C91_level",
    "C91_azimuth_refuted"
   ],
   "note": "Models all formulas at one control point; date split into day number and seconds. Not modelled: calendar (datetime) arithmetic. Stronger claims shown false of the code: C91_path_refuted, C91_azimuth_refuted."
  },
  {
   "property": "C92",
   "status": "proved",
   "theorems": [
    "C92_scaling",
    "C92_scaling_mass",
    "C92_heavier",
    "C92_sized",
    "C92_geared_refuted",
    "C92_fuel",
    "C92_voltage",
    "C92_stack",
    "C92_demand"
   ],
   "note": "Models scaling laws, the two constraint equations, cell voltage and stack sizing. Not modelled: the searches (scipy) are any exact solution. Stronger claims shown false of the code: C92_geared_refuted."
  },
  {
   "property": "C93",
   "status": "proved",
   "theorems": [
    "C93_closes",
    "C93_leaves",
    "C93_success",
    "C93_failure",
    "C93_operating_empty_refuted"
   ],
   "note": "Models the whole statement; the correlations are any functions of the vehicle, then SUAVE's own. Not modelled: energy for systems; cryogenic tanks. Stronger claims shown false of the code: C93_operating_empty_refuted."
  },
  {
   "property": "C94",
   "status": "proved",
   "theorems": [
    "C94_networks",
    "C94_components",
    "C94_total",
    "C94_suave_closes",
    "C94_parts",
    "C94_nacelles_twice",
    "C94_last_network"
   ],
   "note": "Models the loops that store masses. Not modelled: the gear's mass attribute is modelled as stored outside mass_properties."
  },
  {
   "property": "C95",
   "status": "proved",
   "theorems": [
    "C95_factors",
    "C95_systems_refuted",
    "C95_again",
    "C95_lost_refuted",
    "C95_tube_relief"
   ],
   "note": "Models the settling of the factors and where they multiply. Not modelled: none. Stronger claims shown false of the code: C95_systems_refuted, C95_lost_refuted."
  },
  {
   "property": "C96",
   "status": "proved",
   "theorems": [
    "C96_attendants",
    "C96_crew",
    "C96_monotone",
    "C96_payload",
    "C96_payload_flops",
    "C96_baggage",
    "C96_seats",
    "C96_no_coach",
    "C96_systems",
    "C96_tail_area"
   ],
   "note": "Models payload, operating items, systems of Common/Transport; payload and seats of FLOPS. Not modelled: the FLOPS and Raymer systems weights."
  },
  {
   "property": "C97",
   "status": "proved",
   "theorems": [
    "C97_fuse_index",
    "C97_fuse_monotone",
    "C97_wing",
    "C97_fin",
    "C97_ttail",
    "C97_engines",
    "C97_installed",
    "C97_tail"
   ],
   "note": "Models the formulas of the SUAVE correlations, motors and engines. Not modelled: the segmented wing's integral for tapered segments (big_integral is a parameter)."
  },
  {
   "property": "C98",
   "status": "proved",
   "theorems": [
    "C98_integral",
    "C98_cut",
    "C98_bending_refuted",
    "C98_twice"
   ],
   "note": "Models the closed form for straight segments. Not modelled: tapered segments. Stronger claims shown false of the code: C98_bending_refuted."
  },
  {
   "property": "C99",
   "status": "proved",
   "theorems": [
    "C99_relief",
    "C99_bounds",
    "C99_sweep",
    "C99_three_quarter",
    "C99_short_range_refuted",
    "C99_den_refuted",
    "C99_den_low"
   ],
   "note": "Models the simple method and the denominator of the detailed one. Not modelled: the station integration of the detailed method. Stronger claims shown false of the code: C99_short_range_refuted, C99_den_refuted."
  },
  {
   "property": "C100",
   "status": "proved",
   "theorems": [
    "C100_success",
    "C100_failure",
    "C100_closes",
    "C100_fuel_system_refuted",
    "C100_taper_refuted",
    "C100_controls_refuted",
    "C100_furnishings_refuted",
    "C100_wing_units"
   ],
   "note": "Models the statement and all its correlations. Not modelled: strut lengths and fuel volumes are inputs. Stronger claims shown false of the code: C100_fuel_system_refuted, C100_taper_refuted, C100_controls_refuted, C100_furnishings_refuted."
  },
  {
   "property": "C101",
   "status": "proved",
   "theorems": [
    "C101_own_gear",
    "C101_history",
    "C101_independent_refuted",
    "C101_last"
   ],
   "note": "Models class attribute, instance lookup and the two store sequences. Not modelled: only the landing gear attributes of the class. Stronger claims shown false of the code: C101_independent_refuted."
  },
  {
   "property": "C102",
   "status": "proved",
   "theorems": [
    "C102_bwb_closes",
    "C102_bwb_fuselage_refuted",
    "C102_bwb_analysis_refuted",
    "C102_bwb_grows",
    "C102_uav",
    "C102_human_powered",
    "C102_hp_load",
    "C102_hp_grows"
   ],
   "note": "Models the three empty-weight functions and the call from the analysis. Not modelled: the wing weight of the BWB is a parameter. Stronger claims shown false of the code: C102_bwb_fuselage_refuted, C102_bwb_analysis_refuted."
  },
  {
   "property": "C103",
   "status": "proved",
   "theorems": [
    "C103_shear_is_the_load_outboard",
    "C103_moment_is_load_times_arm",
    "C103_loads_fall_towards_the_tip",
    "C103_root_carries_the_design_lift",
    "C103_wings_share_the_weight",
    "C103_thrust_shear_counts_motors_outboard"
   ],
   "note": "Models np.diff, reversed cumulative sums, the scaled elliptic load, the thrust loop. Not modelled: none."
  },
  {
   "property": "C104",
   "status": "proved",
   "theorems": [
    "C104_section_area",
    "C104_skin_length",
    "C104_section_thickness",
    "C104_wing_mass_grows",
    "C104_unloaded_wing",
    "C104_caps_and_web_carry_the_load",
    "C104_torsion_skin_refuted"
   ],
   "note": "Models outline, shoelace, polyline and the mass per station; box properties are inputs of the mass. Not modelled: which outline points lie between the webs (the box of 256-310). Stronger claims shown false of the code: C104_torsion_skin_refuted."
  },
  {
   "property": "C105",
   "status": "proved",
   "theorems": [
    "C105_blade_load",
    "C105_blade_load_refuted",
    "C105_cap_inertia",
    "C105_cap_inertia_refuted",
    "C105_loop_ends",
    "C105_loop_ends_refuted"
   ],
   "note": "Models load, cap inertia with the slice as written, and the loop with fuel. Not modelled: how far the mass at exit is from the limit. Stronger claims shown false of the code: C105_blade_load_refuted, C105_cap_inertia_refuted, C105_loop_ends_refuted."
  },
  {
   "property": "C106",
   "status": "proved",
   "theorems": [
    "C106_fuselage_grows_with_takeoff_weight",
    "C106_wetted_area_grows_with_the_square",
    "C106_pads",
    "C106_keel_refuted",
    "C106_wiring_per_motor",
    "C106_wiring_without_motors"
   ],
   "note": "Models all terms of the two functions. Not modelled: material lookup. Stronger claims shown false of the code: C106_keel_refuted."
  },
  {
   "property": "C107",
   "status": "proved",
   "theorems": [
    "C107_statement",
    "C107_errors",
    "C107_stored_propeller_masses",
    "C107_stored_masses_add_up",
    "C107_declared_and_listed_refuted",
    "C107_servo_of_a_fixed_propeller_refuted"
   ],
   "note": "Models the loop over networks with its leftover variables, wings and sums; blade, wing, wiring and fuselage masses are functions. Not modelled: origins and centres of gravity; a network with no engines at all after another one. Stronger claims shown false of the code: C107_declared_and_listed_refuted, C107_servo_of_a_fixed_propeller_refuted."
  },
  {
   "property": "C108",
   "status": "proved",
   "theorems": [
    "C108_converged",
    "C108_not_converged",
    "C108_converges",
    "C108_last_iteration_refuted",
    "C108_too_many_propellers"
   ],
   "note": "Models the loop, with the build-up as a function of take-off weight. Not modelled: printing. Stronger claims shown false of the code: C108_last_iteration_refuted."
  },
  {
   "property": "C109",
   "status": "proved",
   "theorems": [
    "C109_widths",
    "C109_linear_loading",
    "C109_azimuths",
    "C109_single_azimuth_refuted",
    "C109_swept_blade_refuted"
   ],
   "note": "Models station widths, azimuths, the sweep branch with its shapes. Not modelled: none. Stronger claims shown false of the code: C109_single_azimuth_refuted, C109_swept_blade_refuted."
  },
  {
   "property": "C110",
   "status": "proved",
   "theorems": [
    "C110_induction_is_perpendicular",
    "C110_radial_flow_refuted",
    "C110_power_balance",
    "C110_no_more_out_than_in"
   ],
   "note": "Models one blade element and the sums over a blade, wake angle given. Not modelled: the root finder: its angles are inputs; PROPELLER wake method only. Stronger claims shown false of the code: C110_radial_flow_refuted."
  },
  {
   "property": "C111",
   "status": "proved",
   "theorems": [
    "C111_coefficients",
    "C111_off",
    "C111_at_rest_refuted",
    "C111_throttle_off_refuted",
    "C111_backwards_refuted",
    "C111_in_plane_force",
    "C111_disc_and_axial_agree",
    "C111_crosswind",
    "C111_axial_ignores_crosswind_refuted"
   ],
   "note": "Models all outputs of one control point, numpy division as inf and nan. Not modelled: noise, wake storage. Stronger claims shown false of the code: C111_at_rest_refuted, C111_throttle_off_refuted, C111_backwards_refuted, C111_axial_ignores_crosswind_refuted."
  },
  {
   "property": "C112",
   "status": "proved",
   "theorems": [
    "C112_axes",
    "C112_tilt",
    "C112_euler_angles_refuted"
   ],
   "note": "Models Rodrigues matrices and their products. Not modelled: none. Stronger claims shown false of the code: C112_euler_angles_refuted."
  },
  {
   "property": "C113",
   "status": "proved",
   "theorems": [
    "C113_tip_loss",
    "C113_reversed_inflow"
   ],
   "note": "Models the formula with its guard. Not modelled: none."
  },
  {
   "property": "C114",
   "status": "proved",
   "theorems": [
    "C114_never_zero",
    "C114_lift_curve",
    "C114_karman_tsien",
    "C114_sonic_jump_refuted",
    "C114_negative_stall_refuted",
    "C114_drag_correction",
    "C114_unknown_airfoil"
   ],
   "note": "Models the formula branch and the surrogate branch with functions. Not modelled: surrogate contents. Stronger claims shown false of the code: C114_sonic_jump_refuted, C114_negative_stall_refuted."
  },
  {
   "property": "C115",
   "status": "proved",
   "theorems": [
    "C115_development",
    "C115_contraction",
    "C115_slipstream",
    "C115_superposition_refuted"
   ],
   "note": "Models one wake age; one spanwise place. Not modelled: which wing panels lie in the wake in chordwise direction. Stronger claims shown false of the code: C115_superposition_refuted."
  },
  {
   "property": "C116",
   "status": "proved",
   "theorems": [
    "C116_request",
    "C116_thrust",
    "C116_power",
    "C116_efficiency",
    "C116_blade"
   ],
   "note": "Models the iteration with fuel, its integrals and the results; section lookups are functions. Not modelled: thickness and volume of the blade; the fsolve for incidence."
  },
  {
   "property": "C117",
   "status": "proved",
   "theorems": [
    "C117_influence_is_biot_savart",
    "C117_either_end_first",
    "C117_same_everywhere"
   ],
   "note": "Models the subsonic formula with its allowances, option None for nan. Not modelled: points inside the allowances."
  },
  {
   "property": "C118",
   "status": "proved",
   "theorems": [
    "C118_prandtl_glauert",
    "C118_left_and_right"
   ],
   "note": "Models subsonic and supersonic formulas. Not modelled: accuracy inside allowances."
  },
  {
   "property": "C119",
   "status": "proved",
   "theorems": [
    "C119_nothing_ahead_of_the_cones",
    "C119_cones_cut_off",
    "C119_whole_cone_refuted",
    "C119_own_wave",
    "C119_transonic_panels",
    "C119_transonic_row",
    "C119_other_rows"
   ],
   "note": "Models fore cones, in-plane formula, T2 flags on flat arrays with boolean masks, the row replacement by index arithmetic. Not modelled: one Mach number at a time (the flat index over several is not modelled). Stronger claims shown false of the code: C119_whole_cone_refuted."
  },
  {
   "property": "C120",
   "status": "proved",
   "theorems": [
    "C120_onset_velocity",
    "C120_panel_normal",
    "C120_no_flow_through",
    "C120_flow_left_over",
    "C120_normal_component",
    "C120_falling_panels",
    "C120_falling_panels_refuted",
    "C120_vorlax_slopes",
    "C120_one_network",
    "C120_all_networks_refuted"
   ],
   "note": "Models onset velocities, matrix entries, right-hand sides, normal component. Not modelled: the linear solver: its solution is an input. Stronger claims shown false of the code: C120_falling_panels_refuted, C120_all_networks_refuted."
  },
  {
   "property": "C121",
   "status": "proved",
   "theorems": [
    "C121_sums_stay_in_their_strip",
    "C121_kutta_joukowski",
    "C121_nose_moment",
    "C121_axes_turn",
    "C121_axes_agree",
    "C121_lift_and_drag",
    "C121_moment_centre",
    "C121_symmetric_wing",
    "C121_wings_add_up",
    "C121_suction",
    "C121_suction_pulls",
    "C121_carrying_speed"
   ],
   "note": "Models pressures, strip loads, rotation to wind axes, totals; flat arrays with cumsum, roll and reduceat. Not modelled: rotation effects on leading-edge suction are an input."
  },
  {
   "property": "C122",
   "status": "proved",
   "theorems": [
    "C122_main_wing",
    "C122_largest_wing",
    "C122_no_wing",
    "C122_cg_at_the_nose_refuted"
   ],
   "note": "Models the loop over wings. Not modelled: none. Stronger claims shown false of the code: C122_cg_at_the_nose_refuted."
  },
  {
   "property": "C123",
   "status": "proved",
   "theorems": [
    "C123_accepted",
    "C123_refused"
   ],
   "note": "Models the assertions on the settings. Not modelled: none."
  },
  {
   "property": "C124",
   "status": "proved",
   "theorems": [
    "C124_stations",
    "C124_sections_kept",
    "C124_too_few",
    "C124_surface_lines_up",
    "C124_surface_rows"
   ],
   "note": "Models stations, moving the nearest free station onto each section, sorting. Not modelled: number of sections is the number of stations required."
  },
  {
   "property": "C125",
   "status": "proved",
   "theorems": [
    "C125_strips"
   ],
   "note": "Models the loop over strips with the current section. Not modelled: none."
  },
  {
   "property": "C126",
   "status": "proved",
   "theorems": [
    "C126_neighbours",
    "C126_across",
    "C126_quarters",
    "C126_middle",
    "C126_chord",
    "C126_linear",
    "C126_leading_edge",
    "C126_control_line_refuted"
   ],
   "note": "Models panel corners, vortex and control points with camber and twist. Not modelled: airfoil files: camber points are inputs. Stronger claims shown false of the code: C126_control_line_refuted."
  },
  {
   "property": "C127",
   "status": "proved",
   "theorems": [
    "C127_mirrored",
    "C127_upright",
    "C127_upright_refuted"
   ],
   "note": "Models both sides of symmetric and vertical wings. Not modelled: none. Stronger claims shown false of the code: C127_upright_refuted."
  },
  {
   "property": "C128",
   "status": "proved",
   "theorems": [
    "C128_area",
    "C128_planform"
   ],
   "note": "Models panel areas by cross products (M_Vlm). Not modelled: twisted and cambered wings."
  },
  {
   "property": "C129",
   "status": "proved",
   "theorems": [
    "C129_lists",
    "C129_side",
    "C129_mask",
    "C129_every_panel"
   ],
   "note": "Models the appended index and flag lists. Not modelled: fuselage and nacelle panels."
  },
  {
   "property": "C130",
   "status": "proved",
   "theorems": [
    "C130_turned",
    "C130_rigid",
    "C130_hinge_stays",
    "C130_history",
    "C130_back",
    "C130_mirrored",
    "C130_stabilator_refuted",
    "C130_rudder_refuted"
   ],
   "note": "Models hinge line, rotation matrix, axes of vertical surfaces, the kept hinge direction. Not modelled: other arrays rebuilt from the points. Stronger claims shown false of the code: C130_stabilator_refuted, C130_rudder_refuted."
  },
  {
   "property": "C131",
   "status": "proved",
   "theorems": [
    "C131_parts",
    "C131_once",
    "C131_whole",
    "C131_start_refuted"
   ],
   "note": "Models the cases of a surface against a segment, the loop over segments. Not modelled: names and airfoils of the parts. Stronger claims shown false of the code: C131_start_refuted."
  },
  {
   "property": "C132",
   "status": "proved",
   "theorems": [
    "C132_cut",
    "C132_overlap_refuted",
    "C132_nested_refuted"
   ],
   "note": "Models breaks of segments and surfaces, sorting, three-way merge, joining, filling between start and end. Not modelled: rounding of break names to three decimals; interpolation of shapes is an input. Stronger claims shown false of the code: C132_overlap_refuted, C132_nested_refuted."
  },
  {
   "property": "C133",
   "status": "proved",
   "theorems": [
    "C133_corners",
    "C133_fits",
    "C133_joined",
    "C133_stations",
    "C133_down_refuted"
   ],
   "note": "Models origin, root, tip and sweep of the surface's wing; stations asked for. Not modelled: airfoil of the tip does not matter. Stronger claims shown false of the code: C133_down_refuted."
  },
  {
   "property": "C134",
   "status": "proved",
   "theorems": [
    "C134_ends",
    "C134_continuous",
    "C134_mean",
    "C134_raymer",
    "C134_sears_haack",
    "C134_nonneg",
    "C134_refused",
    "C134_peak_refuted"
   ],
   "note": "Models drag rise of wings, both wave drag forms, parabolas and blends for one condition, the list of results. Not modelled: powers of arguments not positive are 0 (numpy: nan below 0); settings are numbers. Stronger claims shown false of the code: C134_peak_refuted."
  },
  {
   "property": "C135",
   "status": "proved",
   "theorems": [
    "C135_own",
    "C135_places",
    "C135_order_refuted",
    "C135_nonneg",
    "C135_square",
    "C135_negative_refuted"
   ],
   "note": "Models lift wave drag with its indexing of conditions. Not modelled: nothing else. Stronger claims shown false of the code: C135_order_refuted, C135_negative_refuted."
  },
  {
   "property": "C136",
   "status": "proved",
   "theorems": [
    "C136_fuselage",
    "C136_form",
    "C136_nacelle",
    "C136_misc",
    "C136_misc_order",
    "C136_origins_refuted"
   ],
   "note": "Models form factors and entries of fuselage and nacelle, miscellaneous drag. Not modelled: friction coefficient as in C66. Stronger claims shown false of the code: C136_origins_refuted."
  },
  {
   "property": "C137",
   "status": "proved",
   "theorems": [
    "C137_odd",
    "C137_linear",
    "C137_fading",
    "C137_post_maximum",
    "C137_maximum_refuted",
    "C137_slope",
    "C137_level"
   ],
   "note": "Models section, finite aspect ratio, lift of both regimes for one condition. Not modelled: arrays of conditions (pointwise); one Reynolds number per wing. Stronger claims shown false of the code: C137_maximum_refuted."
  },
  {
   "property": "C138",
   "status": "proved",
   "theorems": [
    "C138_parabola",
    "C138_even",
    "C138_beyond",
    "C138_broadside_refuted",
    "C138_least",
    "C138_level"
   ],
   "note": "Models drag of both regimes, larger of the two. Not modelled: as C137. Stronger claims shown false of the code: C138_broadside_refuted."
  },
  {
   "property": "C139",
   "status": "proved",
   "theorems": [
    "C139_sum",
    "C139_order",
    "C139_vertical",
    "C139_mirror",
    "C139_linear"
   ],
   "note": "Models area weighted totals. Not modelled: storing results in the conditions."
  },
  {
   "property": "C140",
   "status": "proved",
   "theorems": [
    "C140_statement",
    "C140_shared",
    "C140_nonneg",
    "C140_grows",
    "C140_learning",
    "C140_escalation",
    "C140_early_refuted"
   ],
   "note": "Models rates, escalation table, items of both kinds, totals, unit cost. Not modelled: units conversions are part of the inputs; powers of 0 are 0. Stronger claims shown false of the code: C140_early_refuted."
  },
  {
   "property": "C141",
   "status": "proved",
   "theorems": [
    "C141_shares",
    "C141_adds_up",
    "C141_facilities_refuted"
   ],
   "note": "Models cumulative tables, yearly differences, categories and totals. Not modelled: duplicated abscissae in the tables. Stronger claims shown false of the code: C141_facilities_refuted."
  },
  {
   "property": "C142",
   "status": "proved",
   "theorems": [
    "C142_multiply",
    "C142_divide",
    "C142_round_trip",
    "C142_convert",
    "C142_through",
    "C142_name",
    "C142_algebra",
    "C142_nothing_refuted"
   ],
   "note": "Models units containers, registry, names, base units, dimensionality check, conversion, products, SUAVE's overridden multiplication and division. Not modelled: parsing of expressions given as strings, contexts, numpy arrays (pointwise); exponents that do not survive printing are excluded by hypothesis. Stronger claims shown false of the code: C142_nothing_refuted."
  },
  {
   "property": "C143",
   "status": "proved",
   "theorems": [
    "C143_scale",
    "C143_round_trip",
    "C143_between",
    "C143_compound_refuted",
    "C143_prefix_refuted"
   ],
   "note": "Models offset converters, the offset branch of convert, delta units of parse_units. Not modelled: as C142. Stronger claims shown false of the code: C143_compound_refuted, C143_prefix_refuted."
  },
  {
   "property": "C144",
   "status": "proved",
   "theorems": [
    "C144_history",
    "C144_reuse_refuted",
    "C144_halving_refuted"
   ],
   "note": "Models the unit object as state threaded through a list of operations. Not modelled: aliasing of the unit object with other containers. Stronger claims shown false of the code: C144_reuse_refuted, C144_halving_refuted."
  },
  {
   "property": "C145",
   "status": "proved",
   "theorems": [
    "C145_stable",
    "C145_prefix",
    "C145_plural",
    "C145_overwrite_refuted",
    "C145_history_refuted"
   ],
   "note": "Models get_name with prefixes, suffixes and stored definitions. Not modelled: symbols, case. Stronger claims shown false of the code: C145_overwrite_refuted, C145_history_refuted."
  },
  {
   "property": "C146",
   "status": "proved",
   "theorems": [
    "C146_shortest"
   ],
   "note": "Models the recursive search with its accumulated path, loop over neighbours. Not modelled: python's recursion limit."
  },
  {
   "property": "C147",
   "status": "proved",
   "theorems": [
    "C147_groups",
    "C147_signs",
    "C147_plain_refuted",
    "C147_integer_refuted"
   ],
   "note": "Models Gaussian elimination with the record of its operations over exact fractions, scaling and signs of the groups. Not modelled: parsing of quantities; the final division is exact here, a float in python. Stronger claims shown false of the code: C147_plain_refuted, C147_integer_refuted."
  },
  {
   "property": "C148",
   "status": "proved",
   "theorems": [
    "C148_ends",
    "C148_layers",
    "C148_early"
   ],
   "note": "Models the loop over shrinking tables. Not modelled: order inside a layer (a set)."
  },
  {
   "property": "C149",
   "status": "proved",
   "theorems": [
    "C149_solutions",
    "C149_mass",
    "C149_order",
    "C149_same",
    "C149_negative_refuted"
   ],
   "note": "Models the residuals handed to the root finder. Not modelled: the root finder itself; what it returns is a hypothesis. Stronger claims shown false of the code: C149_negative_refuted."
  },
  {
   "property": "C150",
   "status": "proved",
   "theorems": [
    "C150_thrust",
    "C150_throttle",
    "C150_ambient",
    "C150_best",
    "C150_limit",
    "C150_impulse",
    "C150_engines_refuted",
    "C150_design_refuted",
    "C150_sized",
    "C150_conditions_refuted"
   ],
   "note": "Models combustor, nozzle, thrust, network and sizing. Not modelled: the optional throat/exit geometry. Stronger claims shown false of the code: C150_engines_refuted, C150_design_refuted, C150_conditions_refuted."
  },
  {
   "property": "C151",
   "status": "proved",
   "theorems": [
    "C151_state",
    "C151_mass",
    "C151_mass_refuted",
    "C151_settings_refuted"
   ],
   "note": "Models throat and exit. Stronger claims shown false of the code: C151_mass_refuted, C151_settings_refuted."
  },
  {
   "property": "C152",
   "status": "proved",
   "theorems": [
    "C152_duct",
    "C152_heats",
    "C152_chokes",
    "C152_fuel",
    "C152_cold_refuted"
   ],
   "note": "Models the residual, its discriminant and the burner. Not modelled: the solver. Stronger claims shown false of the code: C152_cold_refuted."
  },
  {
   "property": "C153",
   "status": "proved",
   "theorems": [
    "C153_limits",
    "C153_state",
    "C153_shock",
    "C153_shock_pressure",
    "C153_limits_refuted",
    "C153_jump_refuted"
   ],
   "note": "Models the five regimes in order of the masks. Not modelled: the solver; its answers satisfy the equations by hypothesis. Stronger claims shown false of the code: C153_limits_refuted, C153_jump_refuted."
  },
  {
   "property": "C154",
   "status": "proved",
   "theorems": [
    "C154_inlet",
    "C154_ram",
    "C154_burner",
    "C154_total_refuted",
    "C154_nozzle",
    "C154_thrust",
    "C154_fuel",
    "C154_design",
    "C154_airflow_refuted",
    "C154_unsized"
   ],
   "note": "Models inlet, burner, nozzle, thrust, network and sizing. Not modelled: the shock train is that of C64. Stronger claims shown false of the code: C154_total_refuted, C154_airflow_refuted."
  },
  {
   "property": "C155",
   "status": "proved",
   "theorems": [
    "C155_totals",
    "C155_nox",
    "C155_index"
   ],
   "note": "Models the index and the integration of the rates."
  },
  {
   "property": "C156",
   "status": "proved",
   "theorems": [
    "C156_altitude",
    "C156_time",
    "C156_forward",
    "C156_down_refuted",
    "C156_speed"
   ],
   "note": "Models unpacking of the unknowns and the clock. Not modelled: the aerodynamics between. Stronger claims shown false of the code: C156_down_refuted."
  },
  {
   "property": "C157",
   "status": "proved",
   "theorems": [
    "C157_fresh",
    "C157_final",
    "C157_final_refuted",
    "C157_feasible",
    "C157_below_refuted",
    "C157_same",
    "C157_bounds",
    "C157_nan_refuted"
   ],
   "note": "Models requests and answers with the cache, constraint rows, bounds. Not modelled: the optimisers themselves: any list of requests; that evaluations depend only on the unknowns is assumed. Stronger claims shown false of the code: C157_final_refuted, C157_below_refuted, C157_nan_refuted."
  },
  {
   "property": "C158",
   "status": "proved",
   "theorems": [
    "C158_energy",
    "C158_discharge",
    "C158_times",
    "C158_margin_refuted",
    "C158_first_refuted",
    "C158_packs_refuted",
    "C158_backward_refuted",
    "C158_unknown",
    "C158_initial",
    "C158_deviation_refuted"
   ],
   "note": "Models duration with optional attributes and networks, first battery state. Not modelled: the battery model during the segment. Stronger claims shown false of the code: C158_margin_refuted, C158_first_refuted, C158_packs_refuted, C158_backward_refuted, C158_deviation_refuted."
  },
  {
   "property": "C159",
   "status": "proved",
   "theorems": [
    "C159_climb",
    "C159_step_refuted",
    "C159_descent"
   ],
   "note": "Models number of points and both tracks, with update_differentials_altitude of M_Segments. Not modelled: previous segments. Stronger claims shown false of the code: C159_step_refuted."
  },
  {
   "property": "C160",
   "status": "proved",
   "theorems": [
    "C160_meridian",
    "C160_south",
    "C160_east",
    "C160_parallel_refuted",
    "C160_oblique_refuted"
   ],
   "note": "Models update_planet_position of M_Mission. Stronger claims shown false of the code: C160_parallel_refuted, C160_oblique_refuted."
  },
  {
   "property": "C161",
   "status": "proved",
   "theorems": [
    "C161_newton",
    "C161_state",
    "C161_unknown",
    "C161_weight",
    "C161_glide",
    "C161_glide_refuted",
    "C161_range"
   ],
   "note": "Models single points, residuals. Not modelled: Set_Speed_Set_Throttle's unknown acceleration. Stronger claims shown false of the code: C161_glide_refuted."
  },
  {
   "property": "C162",
   "status": "proved",
   "theorems": [
    "C162_one_solution",
    "C162_one_answer"
   ],
   "note": "Models stations, chords, equations; np.linalg.solve as the relation it computes. Not modelled: rounding; LinAlgError."
  },
  {
   "property": "C163",
   "status": "proved",
   "theorems": [
    "C163_linear",
    "C163_slope",
    "C163_ellipse",
    "C163_loading",
    "C163_symmetric"
   ],
   "note": "Models the same."
  },
  {
   "property": "C164",
   "status": "proved",
   "theorems": [
    "C164_taper",
    "C164_twist_refuted",
    "C164_between",
    "C164_break_refuted",
    "C164_open",
    "C164_fair"
   ],
   "note": "Models the loop over segments at one station. Stronger claims shown false of the code: C164_twist_refuted, C164_break_refuted."
  },
  {
   "property": "C165",
   "status": "proved",
   "theorems": [
    "C165_vertical",
    "C165_odd_refuted",
    "C165_negative_refuted"
   ],
   "note": "Models section lift, angle and drag sums as coded. Not modelled: the viscous drag that is fixed at zero in the code. Stronger claims shown false of the code: C165_odd_refuted, C165_negative_refuted."
  },
  {
   "property": "C166",
   "status": "proved",
   "theorems": [
    "C166_totals",
    "C166_lift",
    "C166_drag_refuted",
    "C166_wings_refuted"
   ],
   "note": "Models totals, training with its shared array, np.polyfit as any least squares minimiser. Not modelled: evaluate's packing of results. Stronger claims shown false of the code: C166_drag_refuted, C166_wings_refuted."
  },
  {
   "property": "C167",
   "status": "proved",
   "theorems": [
    "C167_outline",
    "C167_nose",
    "C167_mean_line",
    "C167_thickness",
    "C167_thickness_refuted",
    "C167_maximum_refuted",
    "C167_errors"
   ],
   "note": "Models the whole function, names as lists of digits. Not modelled: names with other characters than digits (ValueError); fewer than three points. Stronger claims shown false of the code: C167_thickness_refuted, C167_maximum_refuted."
  },
  {
   "property": "C168",
   "status": "proved",
   "theorems": [
    "C168_estimate",
    "C168_straight",
    "C168_tapered_refuted",
    "C168_scaling",
    "C168_errors"
   ],
   "note": "Models the whole function. Stronger claims shown false of the code: C168_tapered_refuted."
  },
  {
   "property": "C169",
   "status": "proved",
   "theorems": [
    "C169_sized",
    "C169_given",
    "C169_clamp_refuted",
    "C169_again",
    "C169_again_refuted",
    "C169_round",
    "C169_oval",
    "C169_turned",
    "C169_scaling"
   ],
   "note": "Models the whole function, np.round included. Not modelled: width and height of opposite signs. Stronger claims shown false of the code: C169_clamp_refuted, C169_again_refuted."
  },
  {
   "property": "C170",
   "status": "proved",
   "theorems": [
    "C170_bodies",
    "C170_round_trip",
    "C170_engines",
    "C170_engines_refuted",
    "C170_errors"
   ],
   "note": "Models both functions. Not modelled: the half changed vehicle after an error. Stronger claims shown false of the code: C170_engines_refuted."
  },
  {
   "property": "C171",
   "status": "proved",
   "theorems": [
    "C171_horizontal",
    "C171_vertical",
    "C171_fuel",
    "C171_turbofan",
    "C171_larger",
    "C171_power"
   ],
   "note": "Models the sizing formulas over the wing planform of M_Wing."
  },
  {
   "property": "C172",
   "status": "proved",
   "theorems": [
    "C172_line",
    "C172_index",
    "C172_carpet",
    "C172_units",
    "C172_left",
    "C172_restored_refuted"
   ],
   "note": "Models line_plot.py and carpet_plot.py: the table of inputs, the loops over the grid and what is left in the problem. Not modelled: plots; sensitivity of the problem to more than the values of its inputs (hard bounds); negative indices. Stronger claims shown false of the code: C172_restored_refuted."
  },
  {
   "property": "C173",
   "status": "proved",
   "theorems": [
    "C173_round_trip",
    "C173_append",
    "C173_no_constraints",
    "C173_empty",
    "C173_scaled",
    "C173_scaled_refuted"
   ],
   "note": "Models write_optimization_outputs.py 46-77 and read_optimization_outputs.py 30-99 on texts as lists of characters: replace, split, readlines. Not modelled: how numbers are printed (any format without separators that reads back; whether numpy prints that way is not modelled). Stronger claims shown false of the code: C173_scaled_refuted."
  },
  {
   "property": "C174",
   "status": "proved",
   "theorems": [
    "C174_data",
    "C174_basic",
    "C174_mei",
    "C174_errors",
    "C174_corrected",
    "C174_edges",
    "C174_slsqp",
    "C174_slsqp_refuted"
   ],
   "note": "Models additive_setup.py 44-325 (the loop), 383-391, 599-623, 680-736. Not modelled: the inner optimiser, the surrogates and the expected improvement (arbitrary functions); plotting and saving; SNOPT. Stronger claims shown false of the code: C174_slsqp_refuted."
  },
  {
   "property": "C175",
   "status": "proved",
   "theorems": [
    "C175_refine",
    "C175_none",
    "C175_near",
    "C175_plan"
   ],
   "note": "Models Surrogate_Optimization.py 88-216. Not modelled: the surrogate and its optimiser (arbitrary functions); sampling by pyDOE (points within the unit box)."
  },
  {
   "property": "C176",
   "status": "proved",
   "theorems": [
    "C176_round_trip",
    "C176_exact",
    "C176_entries",
    "C176_tags"
   ],
   "note": "Models XML/save.py 57-136, XML/load.py 47-184 (the builder as a machine on parser events), XML/Data.py 57-141. Not modelled: the bytes (escapes, encodings, names that XML does not allow); non-ASCII blanks."
  },
  {
   "property": "C177",
   "status": "proved",
   "theorems": [
    "C177_map",
    "C177_map_only",
    "C177_d3",
    "C177_empty_refuted",
    "C177_append"
   ],
   "note": "Models FreeMind/save.py, D3JS/save_tree.py, Tree_Element.py. Not modelled: times of creation; JSON text; keys and tags that are not strings. Stronger claims shown false of the code: C177_empty_refuted."
  },
  {
   "property": "C178",
   "status": "proved",
   "theorems": [
    "C178_restored",
    "C178_captured",
    "C178_nested_refuted",
    "C178_again_refuted"
   ],
   "note": "Models redirect.py 18-85 with the interpreter's streams and open files as state. Not modelled: buffers; failures to open a file. Stronger claims shown false of the code: C178_nested_refuted, C178_again_refuted."
  },
  {
   "property": "C179",
   "status": "proved",
   "theorems": [
    "C179_pull",
    "C179_push",
    "C179_same",
    "C179_pull_missing",
    "C179_back_refuted",
    "C179_twice_refuted"
   ],
   "note": "Models redirect.py 93-235 on a disk of folders and regular files, with any body. Not modelled: links (183-191, 218-224, make_link), making the folder, relative names with folders other than by their absolute place. Stronger claims shown false of the code: C179_back_refuted, C179_twice_refuted."
  },
  {
   "property": "C180",
   "status": "proved",
   "theorems": [
    "C180_reach",
    "C180_points",
    "C180_second_law",
    "C180_cost",
    "C180_points_refuted",
    "C180_disabled_refuted",
    "C180_unknown"
   ],
   "note": "Models cryocooler_model.py 53-131 on arrays of points. Not modelled: the warnings printed. Stronger claims shown false of the code: C180_points_refuted, C180_disabled_refuted."
  },
  {
   "property": "C181",
   "status": "proved",
   "theorems": [
    "C181_enthalpy",
    "C181_split",
    "C181_split_refuted",
    "C181_balance",
    "C181_hydrogen",
    "C181_boil",
    "C181_nothing",
    "C181_negative_refuted"
   ],
   "note": "Models Coolant_use.py 42-87, the coefficients of Liquid_H2.py, quad as Coquelicot's Riemann integral. Not modelled: quad's rounding; pressures at which the logarithm reaches the Antoine constant. Stronger claims shown false of the code: C181_split_refuted, C181_negative_refuted."
  },
  {
   "property": "C182",
   "status": "proved",
   "theorems": [
    "C182_heat",
    "C182_optimum",
    "C182_slope",
    "C182_part_load",
    "C182_unpowered_refuted",
    "C182_overload_refuted",
    "C182_far_overload_refuted"
   ],
   "note": "Models lead_calculations.py 25-177 with the search as a loop with a budget, Cryogenic_Lead.py 49-166; scipy's derivative with its step of 1. Not modelled: complex numbers, answered as TypeError; copper's interpolated tables. Stronger claims shown false of the code: C182_unpowered_refuted, C182_overload_refuted, C182_far_overload_refuted."
  },
  {
   "property": "C183",
   "status": "proved",
   "theorems": [
    "C183_efficiency",
    "C183_shaft",
    "C183_out_of_range",
    "C183_speed",
    "C183_supply",
    "C183_rotor",
    "C183_rotor_default"
   ],
   "note": "Models dynamo_efficiency.py, the dynamo, supply and rotor classes. Not modelled: matplotlib."
  },
  {
   "property": "C184",
   "status": "proved",
   "theorems": [
    "C184_panel",
    "C184_panels",
    "C184_sheets",
    "C184_no_flow_through",
    "C184_kutta",
    "C184_motion"
   ],
   "note": "Models panels, influence coefficients, the linear system, the Kutta row and the surface speeds; the solver is a relation: whatever solves the system. Not modelled: numpy's solve (existence of a solution), the tiling over cases and control points, the masking of diverged cases."
  },
  {
   "property": "C185",
   "status": "proved",
   "theorems": [
    "C185_force",
    "C185_uniform",
    "C185_linear",
    "C185_symmetry_refuted",
    "C185_drag_one_sided",
    "C185_drag"
   ],
   "note": "Models the sums over segments and the drag formula. Not modelled: the interpolation to the refined outline. Stronger claims shown false of the code: C185_symmetry_refuted."
  },
  {
   "property": "C186",
   "status": "proved",
   "theorems": [
    "C186_laminar_shape",
    "C186_laminar_shear",
    "C186_separation_refuted",
    "C186_turbulent",
    "C186_shape_jump_refuted",
    "C186_smoothing",
    "C186_smoothing_refuted"
   ],
   "note": "Models the closure formulas with their branches, and the smoothing. Not modelled: the integration of the momentum equations by odeint and of the tables along the surface. Stronger claims shown false of the code: C186_separation_refuted, C186_shape_jump_refuted, C186_smoothing_refuted."
  },
  {
   "property": "C187",
   "status": "proved",
   "theorems": [
    "C187_momentum",
    "C187_power",
    "C187_no_fuel",
    "C187_sized",
    "C187_conditions_refuted"
   ],
   "note": "Models thrust, power and fuel of the fan, its sizing, and the sizing's choice of conditions. Not modelled: the ram, the fan and the nozzles before the exit state; the sea level static evaluation. Stronger claims shown false of the code: C187_conditions_refuted."
  },
  {
   "property": "C188",
   "status": "proved",
   "theorems": [
    "C188_battery",
    "C188_hybrid",
    "C188_over_throttle",
    "C188_idle_refuted",
    "C188_generator"
   ],
   "note": "Models the two networks at one control point, with numpy's inf and nan as None. Not modelled: the battery's discharge (C-properties of M_Batt). Stronger claims shown false of the code: C188_idle_refuted."
  },
  {
   "property": "C189",
   "status": "proved",
   "theorems": [
    "C189_generators",
    "C189_leads",
    "C189_leads_refuted",
    "C189_dynamo_refuted",
    "C189_free_energy_refuted",
    "C189_sizing",
    "C189_undersized_refuted",
    "C189_generator_mass"
   ],
   "note": "Models both networks from the loads to the fuel, and both sizings; the cryocooler, the heat exchanger, the lead and the dynamo enter as arbitrary values or functions (M_Cryo models them). Not modelled: the shapes of arrays. Stronger claims shown false of the code: C189_leads_refuted, C189_dynamo_refuted, C189_free_energy_refuted, C189_undersized_refuted."
  },
  {
   "property": "C190",
   "status": "proved",
   "theorems": [
    "C190_blocks",
    "C190_one_block",
    "C190_empty",
    "C190_third_block",
    "C190_not_numbers"
   ],
   "note": "Models the reader's loop over lines of fields; float of a field is a number or ValueError. Not modelled: the characters of a field."
  },
  {
   "property": "C191",
   "status": "proved",
   "theorems": [
    "C191_lednicer",
    "C191_selig",
    "C191_untitled",
    "C191_outline",
    "C191_lost_refuted",
    "C191_text_refuted",
    "C191_digit",
    "C191_blank",
    "C191_trim",
    "C191_origin",
    "C191_ends"
   ],
   "note": "Models detection of the layout, both readers, the trimming, the outline and what is done to the spline's result. Not modelled: the spline itself, the resampled surfaces, thickness and camber. Stronger claims shown false of the code: C191_lost_refuted, C191_text_refuted."
  },
  {
   "property": "C192",
   "status": "proved",
   "theorems": [
    "C192_round_trip",
    "C192_between",
    "C192_ends",
    "C192_thickness",
    "C192_files"
   ],
   "note": "Models blending and the files written, with str of a float as an arbitrary text that float reads back. Not modelled: the plots."
  },
  {
   "property": "C193",
   "status": "proved",
   "theorems": [
    "C193_three",
    "C193_table",
    "C193_no_rows",
    "C193_files",
    "C193_at_data",
    "C193_bounds",
    "C193_beyond"
   ],
   "note": "Models header scan, removal of empty lines, rows, interpolation. Not modelled: fixed columns of a line; the conversion to radians."
  },
  {
   "property": "C194",
   "status": "proved",
   "theorems": [
    "C194_overlay",
    "C194_at_data",
    "C194_drag",
    "C194_answers",
    "C194_missed_refuted"
   ],
   "note": "Models the overlay of nearest values and the raised ends of the drag. Not modelled: the extension itself (see the Aerodas properties) and the surrogates. Stronger claims shown false of the code: C194_missed_refuted."
  },
  {
   "property": "C195",
   "status": "proved",
   "theorems": [
    "C195_constraints",
    "C195_answers",
    "C195_shared_refuted",
    "C195_variables",
    "C195_order_refuted",
    "C195_failure",
    "C195_nan_constraint_refuted",
    "C195_two_objectives"
   ],
   "note": "Models constraints, answers, variables and the failure flag. Not modelled: the solver itself, its options, parallel runs, printing. Stronger claims shown false of the code: C195_shared_refuted, C195_order_refuted, C195_nan_constraint_refuted."
  },
  {
   "property": "C196",
   "status": "proved",
   "theorems": [
    "C196_constraints",
    "C196_scale_refuted",
    "C196_shape",
    "C196_pattern",
    "C196_jacobian"
   ],
   "note": "Models limits as rows of an array with the table's shape, the pattern, the flattened difference quotients. Not modelled: the solver itself; start and bounds are as in C47. Stronger claims shown false of the code: C196_scale_refuted."
  },
  {
   "property": "C197",
   "status": "proved",
   "theorems": [
    "C197_constraints",
    "C197_units_refuted",
    "C197_equality_refuted",
    "C197_through_data",
    "C197_no_data",
    "C197_left_out",
    "C197_left_out_from_end",
    "C197_last_refuted",
    "C197_elsewhere_refuted"
   ],
   "note": "Models set-up, building and evaluation of surrogates with an arbitrary regression, the leave-one-out of the accuracy check. Not modelled: the regressions; the norm of relative differences. Stronger claims shown false of the code: C197_units_refuted, C197_equality_refuted, C197_last_refuted, C197_elsewhere_refuted."
  },
  {
   "property": "C198",
   "status": "proved",
   "theorems": [
    "C198_balance",
    "C198_side",
    "C198_sign",
    "C198_tail",
    "C198_stored",
    "C198_first_network",
    "C198_missing",
    "C198_plain",
    "C198_row_refuted"
   ],
   "note": "Models the choice of area, network and fin, the lever as a row, numpy's division. Not modelled: a network with 0 engines. Stronger claims shown false of the code: C198_row_refuted."
  },
  {
   "property": "C199",
   "status": "proved",
   "theorems": [
    "C199_area",
    "C199_windmilling",
    "C199_order",
    "C199_all_refuted",
    "C199_ratio",
    "C199_ratio_rises",
    "C199_engine_out"
   ],
   "note": "Models the choices of wings, sums over nacelles, the saved throttle. Not modelled: compute_max_lift_coeff (see the field length properties); the network's evaluation, an arbitrary function. Stronger claims shown false of the code: C199_all_refuted."
  },
  {
   "property": "C200",
   "status": "proved",
   "theorems": [
    "C200_stall",
    "C200_table",
    "C200_power",
    "C200_alike",
    "C200_answers",
    "C200_default_refuted"
   ],
   "note": "Models the loops over the grid, with density, drag and propeller power as arbitrary functions of altitude and speed. Not modelled: the mission and propeller behind these functions; the plot. Stronger claims shown false of the code: C200_default_refuted."
  },
  {
   "property": "C201",
   "status": "proved",
   "theorems": [
    "C201_best",
    "C201_parabola"
   ],
   "note": "Models both functions with polar and search arbitrary. Not modelled: scipy's search: that it finds a least value is a hypothesis on the two functions at hand."
  },
  {
   "property": "C202",
   "status": "proved",
   "theorems": [
    "C202_inside",
    "C202_outside",
    "C202_bands",
    "C202_continuous"
   ],
   "note": "Models the five bands of the throttle with the blender of the utilities, for an arbitrary regression. Not modelled: support vector regression together with the extended surrogate."
  },
  {
   "property": "C203",
   "status": "proved",
   "theorems": [
    "C203_rows",
    "C203_twice",
    "C203_anchor",
    "C203_idle",
    "C203_flow",
    "C203_engines_refuted",
    "C203_kinds",
    "C203_vector",
    "C203_jump_refuted"
   ],
   "note": "Models reading without the header, unique rows, scales, regression as an arbitrary function of its data, anchors, evaluation for one control point. Not modelled: the characters of the file; maxima that are 0; the regressions themselves: that they pass through their data is a hypothesis. Stronger claims shown false of the code: C203_engines_refuted, C203_jump_refuted."
  },
  {
   "property": "C204",
   "status": "proved",
   "theorems": [
    "C204_sections",
    "C204_semispan",
    "C204_stations",
    "C204_heights",
    "C204_rise",
    "C204_lean",
    "C204_leading_edge",
    "C204_quarter_chord",
    "C204_plain",
    "C204_same_wing",
    "C204_anhedral_refuted"
   ],
   "note": "Models sweep conversion, walk over segments with the origin carried on, the wing without segments. Not modelled: tags, files of airfoils. Stronger claims shown false of the code: C204_anhedral_refuted."
  },
  {
   "property": "C205",
   "status": "proved",
   "theorems": [
    "C205_breaks",
    "C205_only_there",
    "C205_in_order",
    "C205_known",
    "C205_strange",
    "C205_plain_root_refuted",
    "C205_plain_foil_refuted",
    "C205_plain"
   ],
   "note": "Models breaks as sorted sets, sections at breaks, replacement of the section at the inner end, control surfaces carried. Not modelled: tags, files of airfoils; anhedral. Stronger claims shown false of the code: C205_plain_root_refuted, C205_plain_foil_refuted."
  },
  {
   "property": "C206",
   "status": "proved",
   "theorems": [
    "C206_written",
    "C206_kept",
    "C206_body",
    "C206_no_body",
    "C206_mass"
   ],
   "note": "Models stable sort by key, curvature table, rounded nose and tail, choice of mass. Not modelled: text of the files."
  },
  {
   "property": "C207",
   "status": "proved",
   "theorems": [
    "C207_mixing",
    "C207_limits",
    "C207_scale",
    "C207_excitation",
    "C207_share",
    "C207_distance",
    "C207_total",
    "C207_installation",
    "C207_ground",
    "C207_attack",
    "C207_bands",
    "C207_last_band_refuted"
   ],
   "note": "Models mixed stream, corrections, total, installation, ground and angle of attack effects, history of the primary component's array. Not modelled: formulas of the secondary and mixed components, Doppler and atmospheric interpolation, perceived noise, tunnel and near-field branches. Stronger claims shown false of the code: C207_last_band_refuted."
  },
  {
   "property": "C208",
   "status": "proved",
   "theorems": [
    "C208_direction",
    "C208_settles",
    "C208_places",
    "C208_primary"
   ],
   "note": "Models the iteration with its tolerance, the three places. Not modelled: that the places of the other jets satisfy the distance bound for given engines."
  },
  {
   "property": "C209",
   "status": "proved",
   "theorems": [
    "C209_alpha",
    "C209_alpha_near",
    "C209_level_refuted",
    "C209_beta",
    "C209_throttle",
    "C209_idle_refuted",
    "C209_controls",
    "C209_faster",
    "C209_side_refuted",
    "C209_speed"
   ],
   "note": "Models perturbations and quotients for one control point, the evaluation as an arbitrary function. Not modelled: evaluation of a segment; thrust and power derivatives of propellers; numpy's nan and inf are None. Stronger claims shown false of the code: C209_level_refuted, C209_idle_refuted, C209_side_refuted."
  },
  {
   "property": "C210",
   "status": "proved",
   "theorems": [
    "C210_values",
    "C210_cached",
    "C210_succeeds",
    "C210_failure",
    "C210_total_refuted",
    "C210_file",
    "C210_settings_refuted"
   ],
   "note": "Models the file as a list of rows, look-up, one step per Mach number with failures of OpenVSP, the call that makes the file, histories. Not modelled: geometry in OpenVSP; drag due to lift and divergence (modelled in M_Super.v). Stronger claims shown false of the code: C210_total_refuted, C210_settings_refuted."
  },
  {
   "property": "C211",
   "status": "proved",
   "theorems": [
    "C211_wing",
    "C211_all",
    "C211_beyond",
    "C211_large_refuted"
   ],
   "note": "Models layout of the distribution by wings, running sums with 16-bit products, python indexing. Not modelled: content of the columns, default distribution when none is there. Stronger claims shown false of the code: C211_large_refuted."
  },
  {
   "property": "C212",
   "status": "proved",
   "theorems": [
    "C212_area",
    "C212_none",
    "C212_order",
    "C212_pressure",
    "C212_places",
    "C212_plane_refuted"
   ],
   "note": "Models shift, table of places with sums, running sums. Not modelled: vortex lattice solution (arbitrary pressures); several flight conditions at once. Stronger claims shown false of the code: C212_plane_refuted."
  },
  {
   "property": "C213",
   "status": "proved",
   "theorems": [
    "C213_extremes",
    "C213_cells",
    "C213_rows",
    "C213_chord_refuted",
    "C213_backward"
   ],
   "note": "Models rounding, repetition, exchange at backward steps, shapes, the mask by columns. Not modelled: zero steps and zero chord; cells after an exchange are modelled, no claim is made about them. Stronger claims shown false of the code: C213_chord_refuted."
  },
  {
   "property": "C214",
   "status": "proved",
   "theorems": [
    "C214_evaluate",
    "C214_tags",
    "C214_stop",
    "C214_compile",
    "C214_initialize_refuted"
   ],
   "note": "Models members as arbitrary state-changing calls that may fail, the container's four methods. Not modelled: containers with repeated tags; arguments of the calls (fixed). Stronger claims shown false of the code: C214_initialize_refuted."
  },
  {
   "property": "C215",
   "status": "proved",
   "theorems": [
    "C215_ends",
    "C215_result",
    "C215_prescribed",
    "C215_everywhere",
    "C215_loss",
    "C215_tolerance_refuted",
    "C215_nan_refuted"
   ],
   "note": "Models the loop with nan, the shape, the induced velocities and the tip loss as arbitrary functions. Not modelled: geometry of the wake and the velocities it induces. Stronger claims shown false of the code: C215_tolerance_refuted, C215_nan_refuted."
  },
  {
   "property": "C216",
   "status": "proved",
   "theorems": [
    "C216_product",
    "C216_mirror",
    "C216_height",
    "C216_span",
    "C216_length_refuted"
   ],
   "note": "Models both lines, repeat and tile. Not modelled: plotting. Stronger claims shown false of the code: C216_length_refuted."
  },
  {
   "property": "C217",
   "status": "proved",
   "theorems": [
    "C217_radial",
    "C217_angles",
    "C217_cartesian",
    "C217_fails"
   ],
   "note": "Models both kinds of grid with offsets. Not modelled: plotting."
  },
  {
   "property": "C218",
   "status": "proved",
   "theorems": [
    "C218_outside",
    "C218_wake",
    "C218_chord_refuted",
    "C218_velocity",
    "C218_taper",
    "C218_thickness"
   ],
   "note": "Models chord, momentum thickness, peak, width and profile at one point. Not modelled: inviscid velocities (arbitrary); plotting; infinite intermediate values are nan in the end (None). Stronger claims shown false of the code: C218_chord_refuted."
  },
  {
   "property": "C219",
   "status": "proved",
   "theorems": [
    "C219_points",
    "C219_microphone",
    "C219_straight",
    "C219_together",
    "C219_levels",
    "C219_late_refuted",
    "C219_negative_refuted"
   ],
   "note": "Models number of points, fitted place of the microphone, sum of powers, sequences of calls; the mission, the fit and the level of a segment are arbitrary functions. Not modelled: evaluation of the mission and of the noise of a segment; file output. Stronger claims shown false of the code: C219_late_refuted, C219_negative_refuted."
  },
  {
   "property": "C220",
   "status": "proved",
   "theorems": [
    "C220_inflow",
    "C220_size",
    "C220_even",
    "C220_conditions_refuted"
   ],
   "note": "Models places, components, numpy's alignment of several speeds; the interpolated wake is an arbitrary partial function. Not modelled: scipy's interpolation; rotation of the velocity to the thrust frame; several conditions with one azimuth. Stronger claims shown false of the code: C220_conditions_refuted."
  },
  {
   "property": "C221",
   "status": "proved",
   "theorems": [
    "C221_plane",
    "C221_areas",
    "C221_places_refuted",
    "C221_each"
   ],
   "note": "Models planes, areas, places, pairing with angles of attack; OpenVSP's slices are an arbitrary function of the plane. Not modelled: writing the vehicle; Mach numbers below 1 (nan). Stronger claims shown false of the code: C221_places_refuted."
  }
 ]
}