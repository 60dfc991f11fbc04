# Formal model of suavecode/SUAVE in Rocq (Coq 8.16.1)

## 1. Approach

SUAVE is a conceptual-design framework for aircraft. Its code falls in two kinds:

* *data-structure code* (attribute trees, ordered containers, configuration diffs, pack/unpack of unknown vectors,
  processes, caches, saving): modelled with lists, strings and integers over arbitrary leaf types; every python
  exception is a value of the result type, together with the state the python leaves behind;
* *numerical code* (geometry, atmosphere, frames, batteries, noise, mission kinematics, engines, optimisers): modelled
  over the real numbers of the Coq standard library (`Reals`). Floating-point rounding is abstracted away. Where the
  code relies on, or suffers from, "not a number", numbers are `option R` (M_Engine) so that a division by zero or a
  root of a negative number is visible in the theorems.

The model follows the code function by function, with its branches in the code's order and each definition carrying a
comment that cites file and lines in /repo. Arrays with one row per control point are functions of the row
number or lists; an external routine (numpy's inverse, a solver, a random generator, the atmosphere seen by a segment)
is a universally quantified parameter, so that theorems hold for every behaviour of it.

## 2. File layout

| files | content |
|-------|---------|
| `PyBase.v` | results with exceptions, dictionaries, string helpers |
| `M_*.v` | the model: definitions only, each with its citation; simplifications are stated in the comments |
| `S_*.v` | the specification vocabulary used in theorem statements, independent of the model's helpers |
| `P_*.v` | proofs |
| `Props_*.v` | the property theorems `Cnn_...`, an `Example` meeting their hypotheses, `Print Assumptions` |

`seeded/LOG.jsonl` records the wrong programs the theorems were tested against: the definition edited in a scratch copy,
the edit, the claim it breaks, the theorems that failed, and the theorems added or tightened because of a survivor.
It is not a complete record and no kill rate can be read from it. The script that wrote it added a line only when a theorem
of the named claim failed or was tightened, so edits that every theorem survived were left out. Entries with `"survived"`
are survivors put back at the end from the run outputs that were kept; those of runs whose output was not kept are missing.
In the kept outputs of the random-edit runs, 251 edits made a theorem fail, 39 survived, 3 broke only examples or
helper proofs, and 29 gave no model that compiles or no result. For survivors marked `none identified on review` no listed property
was found to be false of the edited program; those marked `not reviewed` were not looked at.

## 3. Plan and method, property by property

Each entry names the files, what is modelled, how the theorems are proved and what the model leaves out. The theorems themselves are listed in `MANIFEST.json` and closed in the `Props_*.v` file named here. A theorem whose name ends in `_refuted` exhibits a state of the model in which a natural stronger claim is false; those are findings about the code, not gaps of the proof.

### C01 Data.update is a recursive, right-biased merge that never touches private keys

* Files: M_Data, S_Data, P_Dict, P_Data, Props_Data
* Modelled: `Data` as an insertion-ordered association tree; `update` with the try/except that decides between merging and assigning
* Proof: structural induction on the updating tree; pointwise characterisation of lookup and of key order
* Left out: sharing of one python object under two keys
* 5 theorems

### C02 Data.update is idempotent and absorbs repeated updates

* Files: as C01
* Modelled: `update`, construction from a dictionary
* Proof: from the lookup and key-order characterisations
* Left out: as C01
* 3 theorems

### C03 Data.append stores under the normalised tag and refuses duplicates without side effects

* Files: as C01; P_Append
* Modelled: the translation table for tags, `append`
* Proof: character-wise induction; case analysis on membership
* Left out: characters outside the table are ASCII only
* 3 theorems

### C04 Container.append never loses or overwrites a component, whatever the tags

* Files: as C03
* Modelled: `Container.append` with an oracle for `random.randint`
* Proof: invariant over histories of calls
* Left out: -
* 6 theorems, of which refuting a stronger claim: `C04_extend_list_refuted`, `C04_append_always_succeeds_refuted`

### C05 deep_get after deep_set returns the value, and nothing else changes

* Files: as C01
* Modelled: `deep_set`, `deep_get`, dotted paths
* Proof: induction on the path
* Left out: -
* 6 theorems

### C06 pack_array / unpack_array in vector mode are mutually inverse

* Files: M_Pack, S_Pack, P_Pack, Props_Pack
* Modelled: `pack_array`/`unpack_array` over trees of scalars, 0-d arrays, vectors, matrices, foreign objects
* Proof: induction on the tree with an explicit remainder of the vector
* Left out: dtype conversion on assignment
* 6 theorems, of which refuting a stronger claim: `C06_short_vector_fails_refuted`

### C07 pack_array / unpack_array in array mode: exact domain of the round trip

* Files: as C06
* Modelled: array mode of both
* Proof: as C06
* Left out: as C06
* 4 theorems, of which refuting a stronger claim: `C07_scalar_refuted`, `C07_rows_refuted`

### C08 DataOrdered iterates keys in first-insertion order under every history

* Files: M_Ordered, S_Ordered, P_Ordered, Props_Ordered
* Modelled: `DataOrdered`: heap of doubly linked nodes, map and attribute dictionary
* Proof: refinement to an association list; invariant over histories
* Left out: keys that are data descriptors of the class; recursive update
* 9 theorems, of which refuting a stronger claim: `C08_len_refuted`

### C09 DataOrdered.append does not detect duplicates

* Files: as C08
* Modelled: `DataOrdered.append`
* Proof: from the refinement of C08
* Left out: as C08
* 3 theorems

### C10 Diffed_Data.store_diff/pull_base preserve overrides and propagate base edits

* Files: M_Diffed, S_Diffed, P_Diffed, Props_Diffed
* Modelled: `diff`, `store_diff`, `pull_base`, arbitrary equality test and set order
* Proof: induction on trees
* Left out: aliasing between configuration and base; DataOrdered branches that repeat the Data ones
* 7 theorems, of which refuting a stronger claim: `C10_broadcast_refuted`

### C11 append_or_update stacks histories in order

* Files: M_Merge, S_Merge, P_Merge, Props_Merge
* Modelled: `append_or_update`, `append_array`, merging a container of segments
* Proof: induction on trees and on the list of segments
* Left out: -
* 7 theorems, of which refuting a stronger claim: `C11_mismatch_discards_history_refuted`, `C11_array_over_scalar_refuted`

### C12 expand_rows gives every expandable array exactly the requested number of rows

* Files: M_Rows, S_Rows, P_Rows, Props_Rows
* Modelled: `expand_rows` of Conditions and State
* Proof: induction on trees; cyclic copy of rows
* Left out: -
* 8 theorems, of which refuting a stronger claim: `C12_idempotent_refuted`

### C13 Process.evaluate runs every step exactly once, in insertion order

* Files: M_Process, S_Process, P_Process, Props_Process
* Modelled: `Process.evaluate` with arbitrary steps that change state and may raise
* Proof: induction on nested processes
* Left out: printing
* 3 theorems

### C14 Optimiser inputs: scaling, bounding and unit conversion

* Files: M_Opt, M_SetValues, S_Opt, S_SetValues, P_Opt, P_SetValues, Props_Opt, Props_SetValues
* Modelled: scaling, limiting, unit conversion, `set_values`/`get_values` with alias tables and wild cards
* Proof: list induction; frame theorem on trees
* Left out: broadcasting of a length-one vector
* 10 theorems, of which refuting a stronger claim: `C14_crossed_bounds_refuted`, `C14_two_aliases_refuted`, `C14_missing_alias_refuted`, `C14_star_position_refuted`

### C15 Nexus.evaluate caching is transparent

* Files: M_Opt, S_Opt, P_Opt, Props_Opt
* Modelled: `Nexus.evaluate` with its cache, a procedure that may raise
* Proof: invariant over histories of calls
* Left out: -
* 3 theorems, of which refuting a stronger claim: `C15_after_exception_refuted`

### C16 Inequality constraint sign convention and the effect of scaling

* Files: as C15
* Modelled: `inequality_constraint`, `equality_constraint`, scaling of bounds
* Proof: real algebra by case on the sense
* Left out: -
* 6 theorems, of which refuting a stronger claim: `C16_scale_refuted`, `C16_unknown_sense_refuted`

### C17 Forward finite differences are exact on affine problems and cost n+1 evaluations

* Files: as C15
* Modelled: `finite_difference`
* Proof: affine algebra; Taylor bound for the general case
* Left out: -
* 6 theorems

### C18 TRMM corrected low-fidelity model is first-order consistent at the trust-region centre

* Files: M_TRMM, P_TRMM, Props_TRMM
* Modelled: correction and corrected model
* Proof: real algebra, derivability
* Left out: -
* 6 theorems

### C19 TRMM trust-region radius and iterates

* Files: as C18
* Modelled: the trust-region loop with an arbitrary sub-optimiser
* Proof: invariant over the loop
* Left out: plotting and printing
* 9 theorems, of which refuting a stronger claim: `C19_returns_rejected_refuted`, `C19_leaves_bounds_refuted`, `C19_cycles_refuted`

### C20 Sequential segments are chained: time, position, mass, battery energy and range are continuous

* Files: M_Mission, S_Mission, P_Mission, P_Frames, Props_Frames, Props_Mission
* Modelled: initialisation functions of a segment and the mission loop over any list of segments
* Proof: induction over segments
* Left out: stability and noise results, which nothing else reads
* 7 theorems, of which refuting a stronger claim: `C20_landing_mass_refuted`

### C21 unpack_subsegments partitions the unknown vector

* Files: M_Rows/M_Merge/M_Mission; Props_Mission
* Modelled: `unpack_subsegments`, `merge`
* Proof: induction over segments
* Left out: -
* 4 theorems, of which refuting a stronger claim: `C21_two_columns_refuted`

### C22 Changing from dimensionless to dimensional time preserves the operators

* Files: M_Mission, M_Cheb; Props_Cheb
* Modelled: `update_differentials_time`
* Proof: real algebra on matrices as functions
* Left out: -
* 2 theorems

### C23 Mass bookkeeping during a segment

* Files: M_Mission; Props_Mission
* Modelled: `update_weights`, fuel bookkeeping
* Proof: sums; positivity of integrals
* Left out: -
* 7 theorems

### C24 Frame transformations are rotations

* Files: M_Rot, S_Rot, P_Rot, Props_Rot
* Modelled: direction cosine matrices and products, every supported sequence
* Proof: matrix algebra with cos^2+sin^2=1
* Left out: -
* 9 theorems

### C25 Drag opposes the flight path: exactly in symmetric flight

* Files: M_Mission, P_Frames, Props_Frames
* Modelled: `update_orientations`, `update_forces`
* Proof: vector algebra, arctan2 lemmas
* Left out: -
* 8 theorems, of which refuting a stronger claim: `C25_sideslip_refuted`, `C25_bank_refuted`

### C26 Aerodynamic coefficient limiting

* Files: M_Mission; Props_Mission
* Modelled: `update_aerodynamics`, `update_freestream` for an arbitrary aerodynamics analysis
* Proof: case analysis
* Left out: -
* 5 theorems, of which refuting a stronger claim: `C26_negative_limit_refuted`

### C27 Segment kinematics honour the requested schedule

* Files: M_Segments, S_Segments, P_Segments, Props_Segments
* Modelled: the condition-initialising functions of climb, descent, cruise, loiter and hover segments inside an evaluated mission
* Proof: induction over the mission, affine algebra
* Left out: -
* 23 theorems, of which refuting a stronger claim: `C27_seam_refuted`, `C27_pressure_refuted`

### C28 Pitch-rate and transition segments depend on the stored start time

* Files: as C27
* Modelled: pitch-rate and transition segments
* Proof: as C27
* Left out: -
* 6 theorems, of which refuting a stronger claim: `C28_again_refuted`, `C28_transition_start_refuted`

### C29 wing_planform geometry identities

* Files: M_Wing, S_Wing, P_Wing, Props_Wing
* Modelled: `wing_planform`
* Proof: real algebra; integrals of piecewise polynomials through antiderivatives
* Left out: -
* 8 theorems, of which refuting a stronger claim: `C29_one_sided_refuted`

### C30 wing_segmented_planform adds up

* Files: as C29
* Modelled: `wing_segmented_planform` for any number of segments
* Proof: induction over segments; integrals
* Left out: -
* 14 theorems, of which refuting a stronger claim: `C30_thickness_refuted`, `C30_wetted_refuted`, `C30_vertical_refuted`

### C31 Control surfaces are cut at segment breaks without loss — except in one case

* Files: as C29
* Modelled: `populate_control_sections`
* Proof: case analysis of the overlap, induction over segments
* Left out: -
* 3 theorems, of which refuting a stronger claim: `C31_lost_refuted`

### C32 Chord-at-span and span-at-chord are inverse

* Files: as C29
* Modelled: chord-from-span and span-from-chord
* Proof: real algebra
* Left out: -
* 4 theorems

### C33 Vehicle mass and centre of gravity are the weighted sums over the component tree

* Files: M_Mass, S_Mass, P_Mass, Props_Mass
* Modelled: `sum_mass`, `total_moment`, `center_of_gravity` over nested containers
* Proof: induction over trees
* Left out: -
* 10 theorems, of which refuting a stronger claim: `C33_inside_refuted`, `C33_loose_refuted`

### C34 compute_component_centers_of_gravity places components consistently

* Files: as C33
* Modelled: `compute_component_centers_of_gravity`, field by field
* Proof: unfolding, list induction
* Left out: the values of handbook fractions are constants of the model
* 14 theorems, of which refuting a stronger claim: `C34_networks_refuted`, `C34_origins_refuted`, `C34_vertical_refuted`, `C34_again_refuted`

### C35 Fuel centre-of-gravity range brackets every loading

* Files: as C33
* Modelled: sorting of tanks, two filling schedules
* Proof: exchange argument by induction over sorted tanks
* Left out: -
* 4 theorems

### C36 US Standard Atmosphere 1976: physically consistent everywhere

* Files: M_Atmo, S_Atmo, P_Atmo, Props_Atmo
* Modelled: `compute_values` with table, clamping and layers
* Proof: case analysis on layers, derivatives of exp/power, numeric bounds through integer powers
* Left out: -
* 16 theorems, of which refuting a stronger claim: `C36_balance_refuted`, `C36_pressure_refuted`, `C36_centre_refuted`

### C37 Gravity and gas relations

* Files: as C36
* Modelled: Earth gravity, Air properties, free-stream relations
* Proof: monotonicity by derivative or algebra
* Left out: -
* 8 theorems

### C38 Chebyshev operators are exact

* Files: M_Cheb, S_Cheb, P_Cheb, Props_Cheb
* Modelled: `chebyshev_data`, `linear_data`; inverse as a parameter that satisfies the inverse law
* Proof: Lagrange interpolation over R
* Left out: N=1 (division of 0 by 0)
* 12 theorems, of which refuting a stronger claim: `C38_linear_refuted`

### C39 Cubic spline blender and soft max

* Files: M_Util, S_Util, P_Util, Props_Util
* Modelled: `Cubic_Spline_Blender`, `soft_max`
* Proof: real analysis
* Left out: -
* 8 theorems

### C40 interp2d is bilinear interpolation with linear extrapolation

* Files: as C39
* Modelled: `interp2d`
* Proof: real algebra with sorted tables
* Left out: -
* 6 theorems

### C41 Lithium-ion battery: energy and state of charge stay within physical limits

* Files: M_Batt, S_Batt, P_Batt, Props_Batt
* Modelled: `energy_calc` of Lithium_Ion and of the NMC 18650 cell
* Proof: pointwise bounds; induction over control points
* Left out: branches for "not a number"
* 19 theorems, of which refuting a stronger claim: `C41_over_refuted`, `C41_empty_refuted`, `C41_nmc_losses_refuted`, `C41_nmc_throughput_refuted`

### C42 Battery ageing is irreversible

* Files: as C41
* Modelled: `update_battery_state`
* Proof: induction over histories
* Left out: -
* 6 theorems, of which refuting a stronger claim: `C42_positive_refuted`

### C43 Battery sizing meets both requirements

* Files: as C41
* Modelled: sizing functions
* Proof: real algebra; derivative for the Ragone optimum
* Left out: -
* 11 theorems, of which refuting a stronger claim: `C43_soft_refuted`, `C43_cells_refuted`

### C44 Decibel arithmetic

* Files: M_Noise, S_Noise, P_Noise, Props_Noise
* Modelled: decibel arithmetic, third-octave bands, attenuation, A-weighting
* Proof: log/exp algebra; list induction
* Left out: -
* 15 theorems, of which refuting a stronger claim: `C44_edge_refuted`

### C45 Tone correction is applied to the first time step only

* Files: as C44
* Modelled: tone correction
* Proof: case analysis per band
* Left out: -
* 6 theorems, of which refuting a stronger claim: `C45_gap_refuted`, `C45_later_refuted`

### C46 archive/load round trip

* Files: M_Archive, S_Archive, P_Archive, Props_Archive
* Modelled: `archive`, `load` and the file system as a map
* Proof: induction on trees
* Left out: the json library is trusted to write and read back values
* 6 theorems, of which refuting a stronger claim: `C46_keys_refuted`, `C46_method_refuted`, `C46_list_refuted`

### C47 Solver set-ups hand over the problem the user wrote

* Files: M_Opt, M_Swarm, M_TRMM; Props_Swarm, Props_TRMM
* Modelled: what SciPy_Solve, Pyopt_Solve and the TRMM set-up hand to the solver
* Proof: real algebra, list induction
* Left out: the solvers themselves
* 10 theorems, of which refuting a stronger claim: `C47_negative_scale_refuted`, `C47_de_refuted`, `C47_de_equality_refuted`, `C47_trmm_slsqp_refuted`

### C48 Particle swarm: bounds, result and best value

* Files: M_Swarm, S_Swarm, P_Swarm, Props_Swarm
* Modelled: the particle swarm with arbitrary draws
* Proof: invariant over iterations
* Left out: -
* 5 theorems, of which refuting a stronger claim: `C48_feasible_point_ignored_refuted`

### C49 Evaluated segments are coherent

* Files: M_Mission, M_Segments; Props_Segments
* Modelled: all segment processes together
* Proof: induction over the mission
* Left out: analyses are arbitrary functions
* 2 theorems

### C50 Constant-temperature atmosphere

* Files: M_Atmo; Props_Atmo
* Modelled: `Constant_Temperature.compute_values` including its overwriting of the table
* Proof: as C36
* Left out: -
* 6 theorems, of which refuting a stronger claim: `C50_pressure_refuted`

### C51 Latin hypercube sampling

* Files: M_Util; Props_Util
* Modelled: `latin_hypercube_sampling` with arbitrary draws and shuffles
* Proof: permutations; floor arithmetic
* Left out: -
* 3 theorems

### C52 Battery cooling

* Files: M_Batt; Props_Batt
* Modelled: `compute_net_generated_battery_heat`
* Proof: log-mean temperature difference in closed form; sums
* Left out: -
* 5 theorems, of which refuting a stronger claim: `C52_fast_refuted`

### C53 Perceived noise, effective perceived noise and exposure level

* Files: M_Noise; Props_Noise
* Modelled: noys, PNL, EPNL, SENEL
* Proof: list induction with the first/last crossing
* Left out: -
* 10 theorems, of which refuting a stronger claim: `C53_gap_refuted`, `C53_wrap_refuted`, `C53_end_refuted`

### C54 Microphone geometry

* Files: M_Noise; Props_Noise
* Modelled: microphone positions and geometric relations
* Proof: right-triangle trigonometry, list induction
* Left out: -
* 9 theorems, of which refuting a stronger claim: `C54_moving_refuted`, `C54_uneven_refuted`, `C54_base_refuted`

### C55 Airframe noise

* Files: M_Noise; Props_Noise
* Modelled: Fink airframe noise per source and total
* Proof: log algebra
* Left out: -
* 11 theorems, of which refuting a stronger claim: `C55_slots_refuted`, `C55_vertical_refuted`, `C55_silent_refuted`, `C55_last_refuted`

### C56 Noise limits and the simple noise estimate

* Files: M_Noise; Props_Noise
* Modelled: certification limits, Shevell
* Proof: log algebra, rounding bounds
* Left out: -
* 3 theorems

### C57 Gas-turbine components obey their thermodynamic laws

* Files: M_Engine, S_Engine, P_Engine, Props_Engine
* Modelled: Ram, Compressor, Combustor, Turbine, Compression_Nozzle
* Proof: option-valued reals; power algebra
* Left out: array shapes; rayleigh and supersonic burners
* 7 theorems

### C58 A turbofan obeys the first law of thermodynamics

* Files: as C57
* Modelled: Turbofan.evaluate_thrust as a chain of components
* Proof: energy balance by composing component laws
* Left out: noise side outputs
* 3 theorems

### C59 Nozzles choke, expand without losses and pass the captured mass flow

* Files: as C57
* Modelled: Expansion_Nozzle, Supersonic_Nozzle
* Proof: isentropic algebra
* Left out: -
* 3 theorems

### C60 Thrust is the change of momentum, and throttle scales it

* Files: as C57
* Modelled: Thrust.compute
* Proof: real algebra
* Left out: -
* 5 theorems, of which refuting a stronger claim: `C60_idle_refuted`

### C61 A sized turbofan gives its design thrust

* Files: as C57
* Modelled: turbofan_sizing with Thrust.size
* Proof: the cycle is independent of the core size
* Left out: -
* 4 theorems, of which refuting a stronger claim: `C61_off_take_refuted`

### C62 One engine inoperative

* Files: as C57
* Modelled: Turbofan.engine_out
* Proof: list induction
* Left out: -
* 2 theorems

### C63 The mass-flow function

* Files: as C57
* Modelled: fm_id
* Proof: sign of the derivative of the logarithm
* Left out: -
* 2 theorems

### C64 Shock waves

* Files: P_Shock, Props_Shock
* Modelled: normal and oblique shocks, wave angle, shock trains
* Proof: polynomial identities; entropy by derivative; cubic by the triple-angle formula
* Left out: the case 27a^2c+9ab-2=0, where the code divides by zero
* 6 theorems

### C65 Turbojet with afterburner

* Files: M_Engine, Props_Nets
* Modelled: Turbojet_Super.evaluate_thrust
* Proof: as C58
* Left out: -
* 3 theorems, of which refuting a stronger claim: `C65_afterburner_refuted`

### C66 Several networks on one vehicle

* Files: M_Engine, Props_Nets
* Modelled: Network Container.evaluate_thrust
* Proof: list induction
* Left out: -
* 6 theorems, of which refuting a stronger claim: `C66_extra_refuted`, `C66_mixed_refuted`

### C67 Drag is built up from the parts of the vehicle

* Files: M_Drag, S_Drag, P_Drag, P_Drag2, P_Drag3, Props_Drag
* Modelled: the drag part of Fidelity_Zero evaluate: parasite drag of wings (with and without segments), fuselages, nacelles, pylons, parasite_total, induced_drag_aircraft, compressibility, excrescence, untrimmed, trim, spoiler, total; breakdown as a dictionary
* Proof: closed form of the whole evaluation by list induction over dictionary updates; permutation and idempotence on the closed form
* Left out: one control point; recalculation of wetted areas of segments; propulsion drag
* 13 theorems, of which refuting a stronger claim: `C67_tag_refuted`, `C67_glider_refuted`, `C67_places_refuted`

### C68 Induced drag and span efficiency

* Files: M_Drag, Props_Drag
* Modelled: induced_drag_aircraft
* Proof: closed form of the loop; largest-element invariant
* Left out: -
* 4 theorems, of which refuting a stronger claim: `C68_viscous_refuted`

### C69 Skin friction of flat plates

* Files: M_Drag, P_Friction, Props_Drag
* Modelled: compressible_turbulent_flat_plate, compressible_mixed_flat_plate
* Proof: logarithmic derivatives; x c(Re x) is increasing above ln = 2.58
* Left out: rounding
* 6 theorems

### C70 Form factors

* Files: M_Drag, P_Deriv, P_Form, P_Drag3, Props_Drag
* Modelled: form factors of wing, fuselage, nacelle
* Proof: mean value theorem on artanh x - x; numeric bounds on ln 3 and ln 99 for the jump
* Left out: unswept wing at exactly Mach 1 (0/0 in the code)
* 5 theorems, of which refuting a stronger claim: `C70_jump_refuted`

### C71 Drag rise and excrescence drag

* Files: M_Drag, Props_Drag
* Modelled: compressibility_drag_wing, miscellaneous_drag_aircraft_ESDU
* Proof: real arithmetic
* Left out: -
* 6 theorems, of which refuting a stronger claim: `C71_lift_refuted`, `C71_excrescence_refuted`

### C72 Limit loads and design speeds of the flight envelope

* Files: M_Vn, S_Vn, P_Vn, P_Vn2, Props_Vn
* Modelled: limit loads, stall/manoeuvre/cruise/dive speeds, gust speeds, with reals
* Proof: case analysis on the rules; square roots by squares; quadratics by discriminant
* Left out: atmosphere, lift-curve slope and unit conversion are inputs; log, result file and plots
* 10 theorems, of which refuting a stronger claim: `C72_user_refuted`, `C72_sign_refuted`, `C72_order_refuted`

### C73 The flight envelope encloses stall curve, limits and gusts

* Files: M_Vn, S_Vn, P_Vn, P_Vn2, P_Vn3, Props_Vn
* Modelled: the lists of speeds and load factors with every insertion at an index
* Proof: closed form of the insertion loops by induction, then one normal form of the whole diagram
* Left out: the extra gust lines drawn at 1.05 times the dive speed
* 6 theorems, of which refuting a stronger claim: `C73_negative_refuted`

### C74 Maximum lift coefficient of wings with slats and flaps

* Files: M_Field, S_Field, P_Field, P_Field2, Props_Field
* Modelled: slat and flap increments, clean maximum lift, loop over wings
* Proof: loop in closed form by induction; monotonicity by derivatives and positive coefficients
* Left out: the effective flap area comes in as a number
* 8 theorems, of which refuting a stronger claim: `C74_stowed_flap_refuted`, `C74_unknown_flap_refuted`, `C74_reference_refuted`

### C75 Stall speed, take-off and landing field lengths

* Files: M_Field, S_Field, P_Field, P_Field2, Props_Field
* Modelled: stall speed, take-off index, series of constants, climb gradient, landing length
* Proof: polynomials with coefficients at least zero are monotone (induction); field arithmetic
* Left out: atmosphere, thrust, drag ratios are inputs; printing
* 10 theorems, of which refuting a stronger claim: `C75_landing_constants_refuted`

### C76 Take-off weight for a given field length

* Files: M_Field, S_Field, P_Field, P_Field2, Props_Field
* Modelled: fifty weights, numpy interp, final masses
* Proof: interp by induction over the table; chords of convex functions; polynomials of squares are convex
* Left out: the field length is any function of the weight
* 7 theorems, of which refuting a stronger claim: `C76_short_refuted`, `C76_over_refuted`

### C77 Payload-range corners and the search for the range

* Files: M_Field, S_Field, P_Field, P_Field2, Props_Field
* Modelled: corners, correction loop over an arbitrary mission evaluator, the shared result object, electric version
* Proof: invariant of the correction loop, contraction by induction
* Left out: plots, files, printing; the mission's own solution
* 9 theorems, of which refuting a stronger claim: `C77_tanks_refuted`, `C77_shared_refuted`

### C78 Sweep at another fraction of the chord

* Files: M_Stab, S_Stab, P_Stab, Props_Stab
* Modelled: both conversion functions
* Proof: tangents of the angles in closed form, inverse tangent on angles below a right angle
* Left out: wings whose aspect ratio comes from further optional fields
* 5 theorems, of which refuting a stronger claim: `C78_wing_refuted`

### C79 Mean aerodynamic chord, aerodynamic centre and extension to the centre line

* Files: M_Stab, S_Stab, P_Stab, Props_Stab
* Modelled: mean chord, aerodynamic centre, extension
* Proof: integrals of straight chord lines; field arithmetic
* Left out: the wing is taken as the numbers read from it
* 7 theorems, of which refuting a stronger claim: `C79_ac_refuted`, `C79_extend_refuted`

### C80 Lift-curve slope of a finite wing

* Files: M_Stab, S_Stab, P_Stab, Props_Stab
* Modelled: slope at one Mach number, effect of an evaluation on the tail's stored geometry
* Proof: closed forms on both sides of Mach 1; monotonicity of the common shape
* Left out: arrays are one point at a time
* 5 theorems, of which refuting a stronger claim: `C80_sonic_refuted`, `C80_history_refuted`

### C81 Pitching moment and neutral point

* Files: M_Stab, S_Stab, P_Stab, Props_Stab
* Modelled: loop over surfaces, fuselage share, static margin, neutral point
* Proof: sums by induction over the list
* Left out: downwash, efficiency and section data come in as numbers
* 8 theorems, of which refuting a stronger claim: `C81_reported_refuted`, `C81_twist_refuted`

### C82 Yawing moment of fin and fuselages

* Files: M_Stab, S_Stab, P_Stab, Props_Stab
* Modelled: loop over fuselages, shares, tail factor, fin
* Proof: loop in closed form by induction
* Left out: the fin's slope and aerodynamic centre come in as numbers
* 5 theorems, of which refuting a stronger claim: `C82_order_refuted`

### C83 Rate derivatives and one-line mode approximations

* Files: M_Modes, S_Modes, P_Modes, Props_Modes
* Modelled: the formulas of the approximations and derivatives
* Proof: field arithmetic, integrals of straight chord lines
* Left out: the trivial derivatives (cl_r, cx_u, ...)
* 12 theorems, of which refuting a stronger claim: `C83_dihedral_refuted`, `C83_roll_refuted`

### C84 Lateral modes from the full linearised equations

* Files: M_Modes, S_Modes, P_Modes, Props_Modes
* Modelled: numpy's polynomial product, sum and trimming; the determinant; sorting of complex roots; np.roots is any exact root finder
* Proof: evaluation is a homomorphism over the complex ring (induction over the lists); reversing coefficients inverts roots; sorted lists are unique
* Left out: rounding of the root finder
* 5 theorems, of which refuting a stronger claim: `C84_stable_refuted`

### C85 Longitudinal modes from the full linearised equations

* Files: M_Modes, S_Modes, P_Modes, Props_Modes
* Modelled: the determinant and the two division steps
* Proof: coefficient-wise identities
* Left out: divisions by zero inside the steps are excluded by hypothesis
* 6 theorems, of which refuting a stronger claim: `C85_exact_refuted`

### C86 Flight modes from eigenvalues

* Files: M_Modes, S_Modes, P_Modes, Props_Modes
* Modelled: mass rule, both state matrices, dimensional derivatives, inertia, labels
* Proof: field arithmetic; the search for the pair by cases over all positions
* Left out: np.linalg.eig; control-surface columns; storing of results
* 12 theorems, of which refuting a stronger claim: `C86_incidence_rate_refuted`, `C86_speed_refuted`, `C86_inertia_refuted`, `C86_no_pair_refuted`, `C86_vector_refuted`

### C87 Electric motor and propeller in balance

* Files: M_Elec, S_Elec, P_Elec, Props_Elec
* Modelled: the closed formulas of Motor at one control point; not-a-number speeds become 0 as in the code
* Proof: the speed is a root of the balance equation (square completed); uniqueness by monotonicity
* Left out: the propeller itself (Rotor.spin); arrays of control points
* 9 theorems, of which refuting a stronger claim: `C87_low_voltage_refuted`, `C87_unloaded_refuted`

### C88 Simple motor, propeller, gearbox and speed controller conserve energy

* Files: M_Elec, S_Elec, P_Elec, Props_Elec
* Modelled: the low-fidelity converters, controller and network at one point
* Proof: quadratic roots; inequality of means for the best efficiency
* Left out: battery dynamics (C71)
* 12 theorems, of which refuting a stronger claim: `C88_unreachable_refuted`, `C88_ideal_refuted`, `C88_controller_refuted`, `C88_gears_refuted`, `C88_energy_refuted`

### C89 Piston engine power lapse

* Files: M_Elec, S_Elec, P_Elec, Props_Elec
* Modelled: both methods; the density law is a parameter, instantiated with the modelled standard atmosphere
* Proof: field arithmetic, C36 for the density at sea level
* Left out: none
* 7 theorems, of which refuting a stronger claim: `C89_ceiling_refuted`, `C89_jump_refuted`

### C90 Propeller networks add up

* Files: M_Elec, S_Elec, P_Elec, Props_Elec
* Modelled: the loops over units with force, power and current totals and columns; the propeller is any function of speed
* Proof: folds over lists of units; induction
* Left out: wakes and noise data; the propeller's own model; residuals (C23)
* 12 theorems, of which refuting a stronger claim: `C90_efficiency_refuted`, `C90_columns_refuted`, `C90_constant_speed_refuted`

### C91 Sunlight on a panel

* Files: M_Elec, S_Elec, P_Elec, Props_Elec
* Modelled: all formulas at one control point; date split into day number and seconds
* Proof: trigonometric identities; the path by the law of cosines and a quadratic
* Left out: calendar (datetime) arithmetic
* 10 theorems, of which refuting a stronger claim: `C91_path_refuted`, `C91_azimuth_refuted`

### C92 Sizing of motors and fuel cells

* Files: M_Elec, S_Elec, P_Elec, Props_Elec
* Modelled: scaling laws, the two constraint equations, cell voltage and stack sizing
* Proof: field arithmetic, monotonicity, ceil by archimedes
* Left out: the searches (scipy) are any exact solution
* 9 theorems, of which refuting a stronger claim: `C92_geared_refuted`

### C93 Weight statement closes

* Files: M_Weight, S_Weight, P_Weight, Props_Weight
* Modelled: the whole statement; the correlations are any functions of the vehicle, then SUAVE's own
* Proof: induction over the component lists; the exact success condition
* Left out: energy for systems; cryogenic tanks
* 5 theorems, of which refuting a stronger claim: `C93_operating_empty_refuted`

### C94 Masses stored in the vehicle agree with the statement

* Files: M_Weight, S_Weight, P_Weight, Props_Weight
* Modelled: the loops that store masses
* Proof: induction over the component lists
* Left out: the gear's mass attribute is modelled as stored outside mass_properties
* 7 theorems

### C95 Weight reduction factors

* Files: M_Weight, S_Weight, P_Weight, Props_Weight
* Modelled: the settling of the factors and where they multiply
* Proof: case split on the factors, linearity of the loops
* Left out: none
* 5 theorems, of which refuting a stronger claim: `C95_systems_refuted`, `C95_lost_refuted`

### C96 Payload, crew, operating items and systems

* Files: M_Weight, S_Weight, P_Weight, Props_Weight
* Modelled: payload, operating items, systems of Common/Transport; payload and seats of FLOPS
* Proof: floor by archimedes, piecewise monotonicity
* Left out: the FLOPS and Raymer systems weights
* 10 theorems

### C97 Structure and engine correlations

* Files: M_Weight, S_Weight, P_Weight, P_Spar, Props_Spar
* Modelled: the formulas of the SUAVE correlations, motors and engines
* Proof: monotonicity of powers and quotients
* Left out: the segmented wing's integral for tapered segments (big_integral is a parameter)
* 8 theorems

### C98 Bending weight of a constant-chord wing segment

* Files: M_Weight, S_Weight, P_Weight, P_Spar, Props_Spar
* Modelled: the closed form for straight segments
* Proof: explicit antiderivatives, continuous up to the tip; uniqueness and comparison of integrals
* Left out: tapered segments
* 4 theorems, of which refuting a stronger claim: `C98_bending_refuted`

### C99 FLOPS wing weight

* Files: M_Weight, S_Weight, P_Weight, P_Spar, Props_Spar
* Modelled: the simple method and the denominator of the detailed one
* Proof: field arithmetic; trigonometry
* Left out: the station integration of the detailed method
* 7 theorems, of which refuting a stronger claim: `C99_short_range_refuted`, `C99_den_refuted`

### C100 General aviation weight statement

* Files: M_Weight, S_Weight, P_Weight, Props_GA
* Modelled: the statement and all its correlations
* Proof: case analysis; power laws
* Left out: strut lengths and fuel volumes are inputs
* 8 theorems, of which refuting a stronger claim: `C100_fuel_system_refuted`, `C100_taper_refuted`, `C100_controls_refuted`, `C100_furnishings_refuted`

### C101 Weight estimates do not depend on earlier ones

* Files: M_Weight, S_Weight, P_Weight, Props_GA
* Modelled: class attribute, instance lookup and the two store sequences
* Proof: induction over the history
* Left out: only the landing gear attributes of the class
* 4 theorems, of which refuting a stronger claim: `C101_independent_refuted`

### C102 Blended wing body, UAV and human-powered weights

* Files: M_Weight, S_Weight, P_Weight, Props_GA
* Modelled: the three empty-weight functions and the call from the analysis
* Proof: field arithmetic; monotonicity of powers
* Left out: the wing weight of the BWB is a parameter
* 8 theorems, of which refuting a stronger claim: `C102_bwb_fuselage_refuted`, `C102_bwb_analysis_refuted`

### C103 Loads along a wing or blade in the build-ups

* Files: M_Evtol, S_Evtol, P_Evtol, P_Evtol2, Props_Evtol
* Modelled: np.diff, reversed cumulative sums, the scaled elliptic load, the thrust loop
* Proof: sums over index ranges; exchange of summation by induction
* Left out: none
* 6 theorems

### C104 Cross-section and mass of a built-up wing

* Files: M_Evtol, S_Evtol, P_Evtol, P_Evtol2, Props_Evtol
* Modelled: outline, shoelace, polyline and the mass per station; box properties are inputs of the mass
* Proof: signed path sums under reversal, mirror and shift; pointwise order on lists
* Left out: which outline points lie between the webs (the box of 256-310)
* 7 theorems, of which refuting a stronger claim: `C104_torsion_skin_refuted`

### C105 Mass of a propeller blade

* Files: M_Evtol, S_Evtol, P_Evtol, P_Evtol2, Props_Evtol
* Modelled: load, cap inertia with the slice as written, and the loop with fuel
* Proof: sum of squares; contraction in the largest difference, factor independent of the radius; divergence by induction
* Left out: how far the mass at exit is from the limit
* 6 theorems, of which refuting a stronger claim: `C105_blade_load_refuted`, `C105_cap_inertia_refuted`, `C105_loop_ends_refuted`

### C106 Built-up fuselage and wiring

* Files: M_Evtol, S_Evtol, P_Evtol, P_Evtol2, Props_Evtol
* Modelled: all terms of the two functions
* Proof: power laws; roots
* Left out: material lookup
* 6 theorems, of which refuting a stronger claim: `C106_keel_refuted`

### C107 Weight statement of electric vehicles

* Files: M_Evtol, S_Evtol, P_Evtol, P_Evtol2, Props_Evtol
* Modelled: the loop over networks with its leftover variables, wings and sums; blade, wing, wiring and fuselage masses are functions
* Proof: closed form of the unit loop; induction over networks
* Left out: origins and centres of gravity; a network with no engines at all after another one
* 6 theorems, of which refuting a stronger claim: `C107_declared_and_listed_refuted`, `C107_servo_of_a_fixed_propeller_refuted`

### C108 Converging the take-off weight

* Files: M_Evtol, S_Evtol, P_Evtol, P_Evtol2, Props_Evtol
* Modelled: the loop, with the build-up as a function of take-off weight
* Proof: induction over iterations; geometric decay
* Left out: printing
* 5 theorems, of which refuting a stronger claim: `C108_last_iteration_refuted`

### C109 Integration along a rotor blade and around its disc

* Files: M_Rotor, S_Rotor, P_Rotor, P_Rotor2, P_Rotor3, Props_Rotor
* Modelled: station widths, azimuths, the sweep branch with its shapes
* Proof: induction over stations; telescoped sums of sines
* Left out: none
* 5 theorems, of which refuting a stronger claim: `C109_single_azimuth_refuted`, `C109_swept_blade_refuted`

### C110 Energy balance of a spinning rotor

* Files: M_Rotor, S_Rotor, P_Rotor, P_Rotor2, P_Rotor3, Props_Rotor
* Modelled: one blade element and the sums over a blade, wake angle given
* Proof: polynomial identity modulo the circle; sign of losses from the circulation equation
* Left out: the root finder: its angles are inputs; PROPELLER wake method only
* 4 theorems, of which refuting a stronger claim: `C110_radial_flow_refuted`

### C111 Rotor reports

* Files: M_Rotor, S_Rotor, P_Rotor, P_Rotor2, P_Rotor3, Props_Rotor
* Modelled: all outputs of one control point, numpy division as inf and nan
* Proof: case analysis on throttle and rotation
* Left out: noise, wake storage
* 9 theorems, of which refuting a stronger claim: `C111_at_rest_refuted`, `C111_throttle_off_refuted`, `C111_backwards_refuted`, `C111_axial_ignores_crosswind_refuted`

### C112 Rotor axes

* Files: M_Rotor, S_Rotor, P_Rotor, P_Rotor2, P_Rotor3, Props_Rotor
* Modelled: Rodrigues matrices and their products
* Proof: orthogonality; a witness with length pi
* Left out: none
* 3 theorems, of which refuting a stronger claim: `C112_euler_angles_refuted`

### C113 Tip loss factor

* Files: M_Rotor, S_Rotor, P_Rotor, P_Rotor2, P_Rotor3, Props_Rotor
* Modelled: the formula with its guard
* Proof: acos and exp monotonicity
* Left out: none
* 2 theorems

### C114 Blade section coefficients

* Files: M_Rotor, S_Rotor, P_Rotor, P_Rotor2, P_Rotor3, Props_Rotor
* Modelled: the formula branch and the surrogate branch with functions
* Proof: roots and powers
* Left out: surrogate contents
* 7 theorems, of which refuting a stronger claim: `C114_sonic_jump_refuted`, `C114_negative_stall_refuted`

### C115 Wake behind a propeller

* Files: M_Rotor, S_Rotor, P_Rotor, P_Rotor2, P_Rotor3, Props_Rotor
* Modelled: one wake age; one spanwise place
* Proof: induction along the stations
* Left out: which wing panels lie in the wake in chordwise direction
* 4 theorems, of which refuting a stronger claim: `C115_superposition_refuted`

### C116 Propeller design

* Files: M_Rotor, S_Rotor, P_Rotor, P_Rotor2, P_Rotor3, Props_Rotor
* Modelled: the iteration with fuel, its integrals and the results; section lookups are functions
* Proof: roots of two quadratics; induction over rounds
* Left out: thickness and volume of the blade; the fsolve for incidence
* 5 theorems

### C117 Vortex lattice: the influence of a panel is Biot and Savart's

* Files: M_Vlm, S_Vlm, P_Vlm, Props_Vlm
* Modelled: the subsonic formula with its allowances, option None for nan
* Proof: antiderivative of the Biot-Savart integrand; limit of the legs
* Left out: points inside the allowances
* 3 theorems

### C118 Vortex lattice: compressibility and symmetry

* Files: M_Vlm, S_Vlm, P_Vlm, P_Vlm2, Props_Vlm
* Modelled: subsonic and supersonic formulas
* Proof: same antiderivative in stretched coordinates; swapping ends
* Left out: accuracy inside allowances
* 2 theorems

### C119 Vortex lattice: supersonic zones and transonic panels

* Files: M_Vlm, S_Vlm, P_Vlm2, P_Vlm3, Props_Vlm
* Modelled: fore cones, in-plane formula, T2 flags on flat arrays with boolean masks, the row replacement by index arithmetic
* Proof: case analysis; induction over strips; division with remainder
* Left out: one Mach number at a time (the flat index over several is not modelled)
* 7 theorems, of which refuting a stronger claim: `C119_whole_cone_refuted`

### C120 Vortex lattice: no flow through the surface

* Files: M_Vlm, S_Vlm, P_Vlm3, P_Vlm4, Props_Vlm
* Modelled: onset velocities, matrix entries, right-hand sides, normal component
* Proof: linear algebra; acos
* Left out: the linear solver: its solution is an input
* 10 theorems, of which refuting a stronger claim: `C120_falling_panels_refuted`, `C120_all_networks_refuted`

### C121 Vortex lattice: loads

* Files: M_Vlm, S_Vlm, P_Vlm4, Props_Vlm
* Modelled: pressures, strip loads, rotation to wind axes, totals; flat arrays with cumsum, roll and reduceat
* Proof: induction over strips and panels
* Left out: rotation effects on leading-edge suction are an input
* 12 theorems

### C122 Vortex lattice: reference values

* Files: M_Vlm, Props_Vlm
* Modelled: the loop over wings
* Proof: invariant of the loop
* Left out: none
* 4 theorems, of which refuting a stronger claim: `C122_cg_at_the_nose_refuted`

### C123 Vortex lattice: numbers of vortices

* Files: M_Grid, S_Grid, P_Grid, Props_Grid
* Modelled: the assertions on the settings
* Proof: case analysis
* Left out: none
* 2 theorems

### C124 Vortex lattice: stations along the span

* Files: M_Grid, S_Grid, P_Grid, Props_Grid
* Modelled: stations, moving the nearest free station onto each section, sorting
* Proof: invariant of the loop over sections; sorted lists with equal elements are equal
* Left out: number of sections is the number of stations required
* 5 theorems

### C125 Vortex lattice: strips lie in one part of the wing

* Files: M_Grid, S_Grid, P_Grid, Props_Grid
* Modelled: the loop over strips with the current section
* Proof: induction over stations
* Left out: none
* 1 theorems

### C126 Vortex lattice: panels

* Files: M_Grid, S_Grid, P_Grid2, Props_Grid
* Modelled: panel corners, vortex and control points with camber and twist
* Proof: linear algebra
* Left out: airfoil files: camber points are inputs
* 8 theorems, of which refuting a stronger claim: `C126_control_line_refuted`

### C127 Vortex lattice: the other side

* Files: M_Grid, S_Grid, P_Grid2, Props_Grid
* Modelled: both sides of symmetric and vertical wings
* Proof: pointwise identity
* Left out: none
* 3 theorems, of which refuting a stronger claim: `C127_upright_refuted`

### C128 Vortex lattice: panels cover the wing

* Files: M_Grid, S_Grid, P_Grid2, P_Grid3, Props_Grid
* Modelled: panel areas by cross products (M_Vlm)
* Proof: induction over stations
* Left out: twisted and cambered wings
* 2 theorems

### C129 Vortex lattice: lists of panels

* Files: M_Grid, S_Grid, P_Grid3, Props_Grid
* Modelled: the appended index and flag lists
* Proof: induction over sides; division with remainder
* Left out: fuselage and nacelle panels
* 4 theorems

### C130 Vortex lattice: deflecting a surface

* Files: M_Grid, S_Grid, P_Grid4, Props_Grid
* Modelled: hinge line, rotation matrix, axes of vertical surfaces, the kept hinge direction
* Proof: Rodrigues' formula; turns compose; conjugation by reflections
* Left out: other arrays rebuilt from the points
* 8 theorems, of which refuting a stronger claim: `C130_stabilator_refuted`, `C130_rudder_refuted`

### C131 Control surfaces are divided among segments

* Files: M_Cuts, S_Cuts, P_Cuts, Props_Cuts
* Modelled: the cases of a surface against a segment, the loop over segments
* Proof: each case is an intersection; induction over segments
* Left out: names and airfoils of the parts
* 4 theorems, of which refuting a stronger claim: `C131_start_refuted`

### C132 Control surfaces are cut out of the wing

* Files: M_Cuts, S_Cuts, P_Cuts, P_Cuts2, P_Cuts3, Props_Cuts
* Modelled: breaks of segments and surfaces, sorting, three-way merge, joining, filling between start and end
* Proof: the merge is a sorted permutation; invariants of joining and filling
* Left out: rounding of break names to three decimals; interpolation of shapes is an input
* 3 theorems, of which refuting a stronger claim: `C132_overlap_refuted`, `C132_nested_refuted`

### C133 Cut-out surfaces fit the wing

* Files: M_Cuts, S_Cuts, P_Cuts4, Props_Cuts
* Modelled: origin, root, tip and sweep of the surface's wing; stations asked for
* Proof: interpolation commutes with shifting; linear algebra; sorted lists
* Left out: airfoil of the tip does not matter
* 5 theorems, of which refuting a stronger claim: `C133_down_refuted`

### C134 Volume wave drag

* Files: M_Super, S_Super, P_Super, Props_Super
* Modelled: drag rise of wings, both wave drag forms, parabolas and blends for one condition, the list of results
* Proof: parabolas are convex combinations; continuity of pieces; monotone powers
* Left out: powers of arguments not positive are 0 (numpy: nan below 0); settings are numbers
* 8 theorems, of which refuting a stronger claim: `C134_peak_refuted`

### C135 Wave drag due to lift

* Files: M_Super, S_Super, P_Super, Props_Super
* Modelled: lift wave drag with its indexing of conditions
* Proof: induction over the list; Bernstein form of the polynomial on three intervals
* Left out: nothing else
* 6 theorems, of which refuting a stronger claim: `C135_order_refuted`, `C135_negative_refuted`

### C136 Supersonic parasite drag

* Files: M_Super, S_Super, P_Form, P_Super, Props_Super
* Modelled: form factors and entries of fuselage and nacelle, miscellaneous drag
* Proof: continuity and monotonicity of the body of revolution's speed-up; blending
* Left out: friction coefficient as in C66
* 6 theorems, of which refuting a stronger claim: `C136_origins_refuted`

### C137 Lift before and after stall

* Files: M_Aerodas, S_Aerodas, P_Aerodas, Props_Aerodas
* Modelled: section, finite aspect ratio, lift of both regimes for one condition
* Proof: piecewise analysis; Bernoulli's inequality for the clipped exponent
* Left out: arrays of conditions (pointwise); one Reynolds number per wing
* 7 theorems, of which refuting a stronger claim: `C137_maximum_refuted`

### C138 Drag before and after stall

* Files: M_Aerodas, S_Aerodas, P_Aerodas, Props_Aerodas
* Modelled: drag of both regimes, larger of the two
* Proof: parabola and sine bounds
* Left out: as C137
* 6 theorems, of which refuting a stronger claim: `C138_broadside_refuted`

### C139 Stall analysis of a vehicle

* Files: M_Aerodas, S_Aerodas, P_Aerodas, Props_Aerodas
* Modelled: area weighted totals
* Proof: induction over the wings, permutations
* Left out: storing results in the conditions
* 5 theorems

### C140 Cost of a programme

* Files: M_Costs, S_Costs, P_Costs, Props_Costs
* Modelled: rates, escalation table, items of both kinds, totals, unit cost
* Proof: monotone products of powers; share of a power falls
* Left out: units conversions are part of the inputs; powers of 0 are 0
* 7 theorems, of which refuting a stronger claim: `C140_early_refuted`

### C141 Cash flow over the years

* Files: M_Costs, S_Costs, P_Costs, Props_Costs
* Modelled: cumulative tables, yearly differences, categories and totals
* Proof: telescoping by induction over the years
* Left out: duplicated abscissae in the tables
* 3 theorems, of which refuting a stronger claim: `C141_facilities_refuted`

### C142 Unit conversion

* Files: M_Units, S_Units, P_Units, P_Units2, Props_Units
* Modelled: units containers, registry, names, base units, dimensionality check, conversion, products, SUAVE's overridden multiplication and division
* Proof: mutual induction over the inductive relation 'worth' (chain of definitions), invariants of the accumulated units; fuel stands for python's recursion limit
* Left out: parsing of expressions given as strings, contexts, numpy arrays (pointwise); exponents that do not survive printing are excluded by hypothesis
* 8 theorems, of which refuting a stronger claim: `C142_nothing_refuted`

### C143 Temperatures

* Files: M_Units, S_Units, P_Units3, P_Units4, Props_Units
* Modelled: offset converters, the offset branch of convert, delta units of parse_units
* Proof: computation; loop invariant on the exponent of the temperature unit
* Left out: as C142
* 5 theorems, of which refuting a stronger claim: `C143_compound_refuted`, `C143_prefix_refuted`

### C144 A unit object used more than once

* Files: M_Units, S_Units, P_Units2, Props_Units
* Modelled: the unit object as state threaded through a list of operations
* Proof: induction over the list
* Left out: aliasing of the unit object with other containers
* 3 theorems, of which refuting a stronger claim: `C144_reuse_refuted`, `C144_halving_refuted`

### C145 Unit names

* Files: M_Units, S_Units, P_Units3, Props_Units
* Modelled: get_name with prefixes, suffixes and stored definitions
* Proof: splitting lemmas for strings; invariants of the dictionary; divergence by induction on fuel
* Left out: symbols, case
* 5 theorems, of which refuting a stronger claim: `C145_overwrite_refuted`, `C145_history_refuted`

### C146 Shortest path between dimensions

* Files: M_Pint, S_Pint, P_Pint, Props_Pint
* Modelled: the recursive search with its accumulated path, loop over neighbours
* Proof: induction on the nodes left, invariant of the loop; every walk contains a walk without repetitions
* Left out: python's recursion limit
* 1 theorems

### C147 Dimensionless groups

* Files: M_Pint, S_Pint, P_Pint2, P_Pint3, Props_Pint
* Modelled: Gaussian elimination with the record of its operations over exact fractions, scaling and signs of the groups
* Proof: invariants of the elimination: product with the record, record spans and is independent, pivot columns; no axioms
* Left out: parsing of quantities; the final division is exact here, a float in python
* 4 theorems, of which refuting a stronger claim: `C147_plain_refuted`, `C147_integer_refuted`

### C148 Order of dependencies

* Files: M_Pint, S_Pint, P_Pint, Props_Pint
* Modelled: the loop over shrinking tables
* Proof: induction on fuel; decreasing weight; circles are kept by every step
* Left out: order inside a layer (a set)
* 3 theorems

### C149 Flow through a changing area

* Files: M_Rocket, S_Rocket, P_Rocket, Props_Rocket
* Modelled: the residuals handed to the root finder
* Proof: monotony of the area function on both sides of Mach 1, intermediate values
* Left out: the root finder itself; what it returns is a hypothesis
* 5 theorems, of which refuting a stronger claim: `C149_negative_refuted`

### C150 Rocket thrust

* Files: M_Rocket, S_Rocket, P_Rocket, P_Rocket2, Props_Rocket
* Modelled: combustor, nozzle, thrust, network and sizing
* Proof: vacuum thrust as a function of the exit Mach number, its derivative in the pressure
* Left out: the optional throat/exit geometry
* 10 theorems, of which refuting a stronger claim: `C150_engines_refuted`, `C150_design_refuted`, `C150_conditions_refuted`

### C151 States in a rocket nozzle

* Files: M_Rocket, S_Rocket, P_Rocket, P_Rocket2, Props_Rocket
* Modelled: throat and exit
* Proof: powers and square roots
* Left out: -
* 4 theorems, of which refuting a stronger claim: `C151_mass_refuted`, `C151_settings_refuted`

### C152 Heat added in a duct

* Files: M_Rocket, S_Rocket, P_Rocket, P_Rocket3, Props_Rocket
* Modelled: the residual, its discriminant and the burner
* Proof: monotony of the stagnation temperature ratio on both sides of Mach 1
* Left out: the solver
* 5 theorems, of which refuting a stronger claim: `C152_cold_refuted`

### C153 Nozzle with limited area ratios

* Files: M_Rocket, S_Rocket, P_Rocket, P_Rocket3, P_Rocket4, Props_Rocket2
* Modelled: the five regimes in order of the masks
* Proof: case analysis; normal shock relations (C64)
* Left out: the solver; its answers satisfy the equations by hypothesis
* 6 theorems, of which refuting a stronger claim: `C153_limits_refuted`, `C153_jump_refuted`

### C154 Scramjet cycle

* Files: M_Rocket, S_Rocket, P_Rocket, P_Rocket3, Props_Rocket2
* Modelled: inlet, burner, nozzle, thrust, network and sizing
* Proof: field arithmetic
* Left out: the shock train is that of C64
* 10 theorems, of which refuting a stronger claim: `C154_total_refuted`, `C154_airflow_refuted`

### C155 Emissions of a mission segment

* Files: M_Rocket, S_Rocket, P_Rocket, P_Rocket3, Props_Rocket2
* Modelled: the index and the integration of the rates
* Proof: dot products, monotony of powers
* Left out: -
* 3 theorems

### C156 Optimised climb

* Files: M_Seg2, S_Seg2, Props_Seg2
* Modelled: unpacking of the unknowns and the clock
* Proof: sums over points
* Left out: the aerodynamics between
* 5 theorems, of which refuting a stronger claim: `C156_down_refuted`

### C157 What an optimiser is told about a segment

* Files: M_Seg2, Props_Seg2
* Modelled: requests and answers with the cache, constraint rows, bounds
* Proof: induction on histories, permutations
* Left out: the optimisers themselves: any list of requests; that evaluations depend only on the unknowns is assumed
* 8 theorems, of which refuting a stronger claim: `C157_final_refuted`, `C157_below_refuted`, `C157_nan_refuted`

### C158 Charging

* Files: M_Seg2, S_Seg2, Props_Seg3
* Modelled: duration with optional attributes and networks, first battery state
* Proof: case analysis
* Left out: the battery model during the segment
* 10 theorems, of which refuting a stronger claim: `C158_margin_refuted`, `C158_first_refuted`, `C158_packs_refuted`, `C158_backward_refuted`, `C158_deviation_refuted`

### C159 Tracks flown for noise measurements

* Files: M_Seg2, S_Seg2, Props_Seg3
* Modelled: number of points and both tracks, with update_differentials_altitude of M_Segments
* Proof: ceiling bounds, trigonometry
* Left out: previous segments
* 3 theorems, of which refuting a stronger claim: `C159_step_refuted`

### C160 The way over the globe

* Files: M_Mission, S_Seg2, Props_Seg3
* Modelled: update_planet_position of M_Mission
* Proof: sums over points
* Left out: -
* 5 theorems, of which refuting a stronger claim: `C160_parallel_refuted`, `C160_oblique_refuted`

### C161 Points and ranges that are solved for

* Files: M_Seg2, Props_Seg3
* Modelled: single points, residuals
* Proof: field arithmetic, monotony
* Left out: Set_Speed_Set_Throttle's unknown acceleration
* 7 theorems, of which refuting a stronger claim: `C161_glide_refuted`

### C162 Lifting line: the equations can be solved

* Files: M_Line, S_Line, P_Line, Props_Line
* Modelled: stations, chords, equations; np.linalg.solve as the relation it computes
* Proof: orthogonality of sines, energy identity: only zero solves the homogeneous equations; elimination by induction on the size gives a solution
* Left out: rounding; LinAlgError
* 2 theorems

### C163 Lifting line: lift

* Files: M_Line, S_Line, P_Line, Props_Line
* Modelled: the same
* Proof: uniqueness, energy identity and a weighted Cauchy-Schwarz inequality
* Left out: -
* 5 theorems

### C164 Lifting line: chords and twists

* Files: M_Line, S_Line, Props_Line2
* Modelled: the loop over segments at one station
* Proof: induction on the segments
* Left out: -
* 6 theorems, of which refuting a stronger claim: `C164_twist_refuted`, `C164_break_refuted`

### C165 Lifting line: drag

* Files: M_Line, Props_Line2
* Modelled: section lift, angle and drag sums as coded
* Proof: uniqueness; parity of each sum
* Left out: the viscous drag that is fixed at zero in the code
* 3 theorems, of which refuting a stronger claim: `C165_odd_refuted`, `C165_negative_refuted`

### C166 Lifting line: what is fitted

* Files: M_Line, S_Line, Props_Line3
* Modelled: totals, training with its shared array, np.polyfit as any least squares minimiser
* Proof: lists of wings by induction; a fit to points of a line is the line
* Left out: evaluate's packing of results
* 4 theorems, of which refuting a stronger claim: `C166_drag_refuted`, `C166_wings_refuted`

### C167 NACA four-digit airfoils

* Files: M_Geo2, S_Geo2, P_Geo2, Props_Geo2
* Modelled: the whole function, names as lists of digits
* Proof: derivative of the bunching function; indices of the assembled lists; a quadratic factor of the thickness polynomial
* Left out: names with other characters than digits (ValueError); fewer than three points
* 7 theorems, of which refuting a stronger claim: `C167_thickness_refuted`, `C167_maximum_refuted`

### C168 Room inside a wing

* Files: M_Geo2, S_Geo2, P_Geo2, Props_Geo2
* Modelled: the whole function
* Proof: the swept volume as the difference of any antiderivative of the section area
* Left out: -
* 5 theorems, of which refuting a stronger claim: `C168_tapered_refuted`

### C169 Fuselage planform

* Files: M_Geo2, P_Geo2, Props_Geo3
* Modelled: the whole function, np.round included
* Proof: case analysis; inequalities in the square of the ovality
* Left out: width and height of opposite signs
* 9 theorems, of which refuting a stronger claim: `C169_clamp_refuted`, `C169_again_refuted`

### C170 Origins relative to the vehicle

* Files: M_Geo2, S_Geo2, P_Geo2, Props_Geo3
* Modelled: both functions
* Proof: induction on the lists of networks and engines
* Left out: the half changed vehicle after an error
* 5 theorems, of which refuting a stronger claim: `C170_engines_refuted`

### C171 Tails, tanks and nacelles

* Files: M_Geo2, P_Geo2, Props_Geo3
* Modelled: the sizing formulas over the wing planform of M_Wing
* Proof: real powers
* Left out: -
* 6 theorems

### C172 Sweeps of a problem

* Files: M_Sweep, P_Sweep, Props_Sweep
* Modelled: line_plot.py and carpet_plot.py: the table of inputs, the loops over the grid and what is left in the problem
* Proof: induction over the swept values with an absorption law for assignments
* Left out: plots; sensitivity of the problem to more than the values of its inputs (hard bounds); negative indices
* 6 theorems, of which refuting a stronger claim: `C172_restored_refuted`

### C173 Optimisation records

* Files: M_Sweep, S_Sweep, P_Sweep, Props_Sweep
* Modelled: write_optimization_outputs.py 46-77 and read_optimization_outputs.py 30-99 on texts as lists of characters: replace, split, readlines
* Proof: a pattern with one '=' can only match where its '=' does; induction over lines
* Left out: how numbers are printed (any format without separators that reads back; whether numpy prints that way is not modelled)
* 6 theorems, of which refuting a stronger claim: `C173_scaled_refuted`

### C174 Two-fidelity optimisation with additive corrections

* Files: M_Sweep, P_Sweep, Props_Sweep
* Modelled: additive_setup.py 44-325 (the loop), 383-391, 599-623, 680-736
* Proof: invariant of the loop over the collected data
* Left out: the inner optimiser, the surrogates and the expected improvement (arbitrary functions); plotting and saving; SNOPT
* 8 theorems, of which refuting a stronger claim: `C174_slsqp_refuted`

### C175 Iterated surrogate optimisation

* Files: M_Sweep, P_Sweep, Props_Sweep
* Modelled: Surrogate_Optimization.py 88-216
* Proof: invariant of the loop: evaluations are the optima so far
* Left out: the surrogate and its optimiser (arbitrary functions); sampling by pyDOE (points within the unit box)
* 4 theorems

### C176 XML files

* Files: M_Tree, S_Tree, P_Tree, Props_Tree
* Modelled: XML/save.py 57-136, XML/load.py 47-184 (the builder as a machine on parser events), XML/Data.py 57-141
* Proof: mutual induction over trees and the events reported for them; induction over nested dictionaries
* Left out: the bytes (escapes, encodings, names that XML does not allow); non-ASCII blanks
* 4 theorems

### C177 Mind maps and d3 trees

* Files: M_Tree, S_Tree, P_Tree, Props_Tree
* Modelled: FreeMind/save.py, D3JS/save_tree.py, Tree_Element.py
* Proof: induction over nested values
* Left out: times of creation; JSON text; keys and tags that are not strings
* 5 theorems, of which refuting a stronger claim: `C177_empty_refuted`

### C178 Redirected output

* Files: M_Tree, S_Tree, P_Tree, Props_Tree
* Modelled: redirect.py 18-85 with the interpreter's streams and open files as state
* Proof: invariant of the state over nested programs
* Left out: buffers; failures to open a file
* 4 theorems, of which refuting a stronger claim: `C178_nested_refuted`, `C178_again_refuted`

### C179 Working in another folder

* Files: M_Tree, S_Tree, P_Tree, Props_Tree
* Modelled: redirect.py 93-235 on a disk of folders and regular files, with any body
* Proof: what one transfer does, and induction over the names
* Left out: links (183-191, 218-224, make_link), making the folder, relative names with folders other than by their absolute place
* 6 theorems, of which refuting a stronger claim: `C179_back_refuted`, `C179_twice_refuted`

### C180 Cryocoolers

* Files: M_Cryo, S_Cryo, P_Cryo, Props_Cryo
* Modelled: cryocooler_model.py 53-131 on arrays of points
* Proof: case analysis over the kinds; completing a square for Carnot's bound
* Left out: the warnings printed
* 7 theorems, of which refuting a stronger claim: `C180_points_refuted`, `C180_disabled_refuted`

### C181 Cryogen consumption

* Files: M_Cryo, S_Cryo, P_Cryo, Props_Cryo
* Modelled: Coolant_use.py 42-87, the coefficients of Liquid_H2.py, quad as Coquelicot's Riemann integral
* Proof: additivity and positivity of integrals, cases on the boiling point
* Left out: quad's rounding; pressures at which the logarithm reaches the Antoine constant
* 8 theorems, of which refuting a stronger claim: `C181_split_refuted`, `C181_negative_refuted`

### C182 Cryogenic current leads

* Files: M_Cryo, S_Cryo, P_Cryo, Props_Cryo
* Modelled: lead_calculations.py 25-177 with the search as a loop with a budget, Cryogenic_Lead.py 49-166; scipy's derivative with its step of 1
* Proof: integrals; induction over the rounds of the search with the invariant that the guess is too high
* Left out: complex numbers, answered as TypeError; copper's interpolated tables
* 7 theorems, of which refuting a stronger claim: `C182_unpowered_refuted`, `C182_overload_refuted`, `C182_far_overload_refuted`

### C183 Dynamos and superconducting rotors

* Files: M_Cryo, S_Cryo, P_Cryo, Props_Cryo
* Modelled: dynamo_efficiency.py, the dynamo, supply and rotor classes
* Proof: algebra point by point over arrays
* Left out: matplotlib
* 7 theorems

### C184 Flow over an airfoil by the panel method

* Files: M_Panel.v, S_Panel.v, P_Panel.v, Props_Panel.v
* Modelled: panels, influence coefficients, the linear system, the Kutta row and the surface speeds; the solver is a relation: whatever solves the system
* Proof: the coefficients are shown equal to integrals of point sources and vortices in panel coordinates (Coquelicot's RInt, antiderivatives ln and atan, the signed arc cosine as a difference of arc tangents), so the rows of the system say that the flow has no normal component; motion by invariance of every coefficient
* Left out: numpy's solve (existence of a solution), the tiling over cases and control points, the masking of diverged cases
* 6 theorems

### C185 Airfoil coefficients from surface pressures

* Files: M_Panel.v, S_Panel.v, Props_Panel.v
* Modelled: the sums over segments and the drag formula
* Proof: map extensionality against the force on each segment; induction with telescoping; linearity by induction on the lists
* Left out: the interpolation to the refined outline
* 6 theorems, of which refuting a stronger claim: `C185_symmetry_refuted`

### C186 Closure relations of the boundary layer

* Files: M_Panel.v, Props_Panel.v
* Modelled: the closure formulas with their branches, and the smoothing
* Proof: interval arithmetic, monotone inverses and powers; induction over lists for the smoothing
* Left out: the integration of the momentum equations by odeint and of the tables along the surface
* 7 theorems, of which refuting a stronger claim: `C186_separation_refuted`, `C186_shape_jump_refuted`, `C186_smoothing_refuted`

### C187 Ducted fan thrust, power and sizing

* Files: M_Efan.v, S_Efan.v, Props_Efan.v
* Modelled: thrust, power and fuel of the fan, its sizing, and the sizing's choice of conditions
* Proof: field identities over the reals against momentum and kinetic energy
* Left out: the ram, the fan and the nozzles before the exit state; the sea level static evaluation
* 5 theorems, of which refuting a stronger claim: `C187_conditions_refuted`

### C188 Battery and serial hybrid fan networks balance

* Files: M_Efan.v, S_Efan.v, Props_Efan.v
* Modelled: the two networks at one control point, with numpy's inf and nan as None
* Proof: case analysis on the clipped throttle and field identities
* Left out: the battery's discharge (C-properties of M_Batt)
* 5 theorems, of which refuting a stronger claim: `C188_idle_refuted`

### C189 Superconducting turboelectric networks account for power, cooling and fuel

* Files: M_Efan.v, S_Efan.v, Props_Efan.v
* Modelled: both networks from the loads to the fuel, and both sizings; the cryocooler, the heat exchanger, the lead and the dynamo enter as arbitrary values or functions (M_Cryo models them)
* Proof: field identities against independently written needs
* Left out: the shapes of arrays
* 8 theorems, of which refuting a stronger claim: `C189_leads_refuted`, `C189_dynamo_refuted`, `C189_free_energy_refuted`, `C189_undersized_refuted`

### C190 Airfoil coordinates in two blocks are read as they stand

* Files: M_Afile.v, S_Afile.v, P_Afile.v, Props_Afile.v
* Modelled: the reader's loop over lines of fields; float of a field is a number or ValueError
* Proof: induction over the blocks
* Left out: the characters of a field
* 5 theorems

### C191 Airfoil geometry files in both layouts give the same surfaces

* Files: M_Afile.v, S_Afile.v, P_Afile.v, Props_Afile.v
* Modelled: detection of the layout, both readers, the trimming, the outline and what is done to the spline's result
* Proof: induction over the lines with the text order of python as an arbitrary test on adjacent lines
* Left out: the spline itself, the resampled surfaces, thickness and camber
* 11 theorems, of which refuting a stronger claim: `C191_lost_refuted`, `C191_text_refuted`

### C192 Airfoils generated between two airfoils

* Files: M_Afile.v, S_Afile.v, P_Afile.v, Props_Afile.v
* Modelled: blending and the files written, with str of a float as an arbitrary text that float reads back
* Proof: the theorem on Lednicer's layout, and induction over the points
* Left out: the plots
* 5 theorems

### C193 Airfoil polars are tabulated and interpolated

* Files: M_Afile.v, S_Afile.v, P_Afile.v, Props_Afile.v
* Modelled: header scan, removal of empty lines, rows, interpolation
* Proof: induction over the lines; the specification of piecewise linear interpolation
* Left out: fixed columns of a line; the conversion to radians
* 7 theorems

### C194 Measured polars are laid over the extended ones

* Files: M_Afile.v, S_Afile.v, P_Afile.v, Props_Afile.v
* Modelled: the overlay of nearest values and the raised ends of the drag
* Proof: induction over the table for the first nearest entry; index lemmas
* Left out: the extension itself (see the Aerodas properties) and the surrogates
* 5 theorems, of which refuting a stronger claim: `C194_missed_refuted`

### C195 What pyOptSparse is given and told

* Files: M_Solv.v, Props_Solv.v
* Modelled: constraints, answers, variables and the failure flag
* Proof: algebra on scaled bounds; induction over names for the dictionary
* Left out: the solver itself, its options, parallel runs, printing
* 8 theorems, of which refuting a stronger claim: `C195_shared_refuted`, `C195_order_refuted`, `C195_nan_constraint_refuted`

### C196 What Ipopt is given

* Files: M_Solv.v, Props_Solv.v
* Modelled: limits as rows of an array with the table's shape, the pattern, the flattened difference quotients
* Proof: division and remainder by induction over rows
* Left out: the solver itself; start and bounds are as in C47
* 5 theorems, of which refuting a stronger claim: `C196_scale_refuted`

### C197 Surrogate problems

* Files: M_Solv.v, Props_Solv.v
* Modelled: set-up, building and evaluation of surrogates with an arbitrary regression, the leave-one-out of the accuracy check
* Proof: induction over columns and list surgery
* Left out: the regressions; the norm of relative differences
* 9 theorems, of which refuting a stronger claim: `C197_units_refuted`, `C197_equality_refuted`, `C197_last_refuted`, `C197_elsewhere_refuted`

### C198 Trim drag of a failed engine balances its moment

* Files: M_Perf.v, Props_Perf.v
* Modelled: the choice of area, network and fin, the lever as a row, numpy's division
* Proof: algebra; induction over the wings
* Left out: a network with 0 engines
* 9 theorems, of which refuting a stronger claim: `C198_row_refuted`

### C199 Reference area, windmilling drag, lift over drag and thrust with an engine out

* Files: M_Perf.v, Props_Perf.v
* Modelled: the choices of wings, sums over nacelles, the saved throttle
* Proof: induction over the lists; monotonicity of the square root
* Left out: compute_max_lift_coeff (see the field length properties); the network's evaluation, an arbitrary function
* 7 theorems, of which refuting a stronger claim: `C199_all_refuted`

### C200 Speed-altitude diagram of an electric aircraft

* Files: M_Perf.v, Props_Perf.v
* Modelled: the loops over the grid, with density, drag and propeller power as arbitrary functions of altitude and speed
* Proof: index lemmas on the grid and the table; algebra
* Left out: the mission and propeller behind these functions; the plot
* 6 theorems, of which refuting a stronger claim: `C200_default_refuted`

### C201 Speeds for best range and endurance

* Files: M_Perf.v, Props_Perf.v
* Modelled: both functions with polar and search arbitrary
* Proof: the least value turned round; completion of the square
* Left out: scipy's search: that it finds a least value is a hypothesis on the two functions at hand
* 2 theorems

### C202 Engine decks beyond their throttle range

* Files: M_Deck.v, Props_Deck.v
* Modelled: the five bands of the throttle with the blender of the utilities, for an arbitrary regression
* Proof: gluing of continuous pieces; convex combinations
* Left out: support vector regression together with the extended surrogate
* 4 theorems

### C203 Engine decks give back their table and their anchors

* Files: M_Deck.v, Props_Deck.v
* Modelled: reading without the header, unique rows, scales, regression as an arbitrary function of its data, anchors, evaluation for one control point
* Proof: index lemmas; algebra
* Left out: the characters of the file; maxima that are 0; the regressions themselves: that they pass through their data is a hypothesis
* 9 theorems, of which refuting a stronger claim: `C203_engines_refuted`, `C203_jump_refuted`

### C204 Wings laid out for AVL

* Files: M_Avl.v, Props_Avl.v
* Modelled: sweep conversion, walk over segments with the origin carried on, the wing without segments
* Proof: induction over segments; trigonometry
* Left out: tags, files of airfoils
* 11 theorems, of which refuting a stronger claim: `C204_anhedral_refuted`

### C205 AVL sections at control surfaces

* Files: M_Avl.v, Props_Avl.v
* Modelled: breaks as sorted sets, sections at breaks, replacement of the section at the inner end, control surfaces carried
* Proof: closed form of the walk as panels; induction over segments and breaks
* Left out: tags, files of airfoils; anhedral
* 8 theorems, of which refuting a stronger claim: `C205_plain_root_refuted`, `C205_plain_foil_refuted`

### C206 Bodies, order and mass in AVL files

* Files: M_Avl.v, Props_Avl.v
* Modelled: stable sort by key, curvature table, rounded nose and tail, choice of mass
* Proof: insertion sort lemmas; range of interpolation and powers
* Left out: text of the files
* 5 theorems

### C207 Jet noise levels

* Files: M_Jet.v, Props_Jet.v
* Modelled: mixed stream, corrections, total, installation, ground and angle of attack effects, history of the primary component's array
* Proof: algebra, log and power laws, induction over steps
* Left out: formulas of the secondary and mixed components, Doppler and atmospheric interpolation, perceived noise, tunnel and near-field branches
* 12 theorems, of which refuting a stronger claim: `C207_last_band_refuted`

### C208 Search for the places of jet noise sources

* Files: M_Jet.v, Props_Jet.v
* Modelled: the iteration with its tolerance, the three places
* Proof: contraction by one half per round; bound of the slope of arctangent
* Left out: that the places of the other jets satisfy the distance bound for given engines
* 4 theorems

### C209 Aerodynamic derivatives by finite differences

* Files: M_Deriv.v, Props_Deriv.v
* Modelled: perturbations and quotients for one control point, the evaluation as an arbitrary function
* Proof: mean value theorem
* Left out: evaluation of a segment; thrust and power derivatives of propellers; numpy's nan and inf are None
* 10 theorems, of which refuting a stronger claim: `C209_level_refuted`, `C209_idle_refuted`, `C209_side_refuted`

### C210 File of wave drags from OpenVSP

* Files: M_Wdrag.v, Props_Wdrag.v
* Modelled: the file as a list of rows, look-up, one step per Mach number with failures of OpenVSP, the call that makes the file, histories
* Proof: invariant of the file over histories
* Left out: geometry in OpenVSP; drag due to lift and divergence (modelled in M_Super.v)
* 7 theorems, of which refuting a stronger claim: `C210_total_refuted`, `C210_settings_refuted`

### C211 Panels of one wing

* Files: M_Vdpart.v, Props_Vdpart.v
* Modelled: layout of the distribution by wings, running sums with 16-bit products, python indexing
* Proof: induction over wings; running sums as lengths of prefixes
* Left out: content of the columns, default distribution when none is there
* 4 theorems, of which refuting a stronger claim: `C211_large_refuted`

### C212 Equivalent area due to lift

* Files: M_Vdpart.v, Props_Vdpart.v
* Modelled: shift, table of places with sums, running sums
* Proof: sortedness and prefix sums of insertion
* Left out: vortex lattice solution (arbitrary pressures); several flight conditions at once
* 6 theorems, of which refuting a stronger claim: `C212_plane_refuted`

### C213 Airfoils as masks of cells

* Files: M_Mesh2.v, Props_Mesh2.v
* Modelled: rounding, repetition, exchange at backward steps, shapes, the mask by columns
* Proof: induction over points for the repeated columns; rounding lemmas turn integer into real comparisons
* Left out: zero steps and zero chord; cells after an exchange are modelled, no claim is made about them
* 5 theorems, of which refuting a stronger claim: `C213_chord_refuted`

### C214 Containers of analyses run their members in order

* Files: M_Run3.v, Props_Run3.v
* Modelled: members as arbitrary state-changing calls that may fail, the container's four methods
* Proof: induction over members; refinement to an inductive specification of a run
* Left out: containers with repeated tags; arguments of the calls (fixed)
* 5 theorems, of which refuting a stronger claim: `C214_initialize_refuted`

### C215 Convergence of a rotor's vortex wake

* Files: M_Run3.v, Props_Run3.v
* Modelled: the loop with nan, the shape, the induced velocities and the tip loss as arbitrary functions
* Proof: measure on passes; induction with the history of changes
* Left out: geometry of the wake and the velocities it induces
* 7 theorems, of which refuting a stronger claim: `C215_tolerance_refuted`, `C215_nan_refuted`

### C216 Grid of points behind a wing

* Files: M_Grid3.v, Props_Grid3.v
* Modelled: both lines, repeat and tile
* Proof: indexing of products; bounds of linspace and cosine
* Left out: plotting
* 5 theorems, of which refuting a stronger claim: `C216_length_refuted`

### C217 Grid of points at a propeller

* Files: M_Grid3.v, Props_Grid3.v
* Modelled: both kinds of grid with offsets
* Proof: indexing; circle identity
* Left out: plotting
* 4 theorems

### C218 Viscous deficit of a wing's wake

* Files: M_Grid3.v, Props_Grid3.v
* Modelled: chord, momentum thickness, peak, width and profile at one point
* Proof: algebra of square roots and exponentials
* Left out: inviscid velocities (arbitrary); plotting; infinite intermediate values are nan in the end (None)
* 6 theorems, of which refuting a stronger claim: `C218_chord_refuted`

### C219 Certification noise levels

* Files: M_Cert.v, Props_Cert.v
* Modelled: number of points, fitted place of the microphone, sum of powers, sequences of calls; the mission, the fit and the level of a segment are arbitrary functions
* Proof: rounding lemmas; a cubic with four zeros is zero; logarithms; induction over calls
* Left out: evaluation of the mission and of the noise of a segment; file output
* 7 theorems, of which refuting a stronger claim: `C219_late_refuted`, `C219_negative_refuted`

### C220 Inflow of a propeller in a wing's wake

* Files: M_Xtra.v, Props_Xtra.v
* Modelled: places, components, numpy's alignment of several speeds; the interpolated wake is an arbitrary partial function
* Proof: algebra; telescoping trigonometric sums
* Left out: scipy's interpolation; rotation of the velocity to the thrust frame; several conditions with one azimuth
* 4 theorems, of which refuting a stronger claim: `C220_conditions_refuted`

### C221 Slices of a vehicle along Mach planes

* Files: M_Xtra.v, Props_Xtra.v
* Modelled: planes, areas, places, pairing with angles of attack; OpenVSP's slices are an arbitrary function of the plane
* Proof: trigonometry; induction over Mach numbers
* Left out: writing the vehicle; Mach numbers below 1 (nan)
* 4 theorems, of which refuting a stronger claim: `C221_places_refuted`

## 4. Findings

What the faithful model makes of the code, where a user might expect something else. Those with a theorem are named above (`_refuted`); the others were met while reading.

**Attribute trees and containers**

* `unpack_array` matches values by position: a vector of the wrong length can be broadcast silently
* `DataOrdered.append` never notices a duplicate tag
* `Container.append` can raise KeyError although a free name exists
* append_or_update swallows shape errors and then discards a nested history
* a key deleted in a configuration comes back as None

**Optimisation**

* two aliases for one input name or a missing alias shift all later values
* a wild card works only between names, not at the end
* crossed bounds give the upper bound
* after an exception the cache keeps the new inputs with the old results
* constraint scale divides the value but not the bound; "<=" is treated like ">" or "="
* no constraints: IndexError
* differential evolution: late-binding closure makes every constraint the last one; equality constraints raise UnboundLocalError
* negative scales swap bounds
* particle swarm ignores feasible points when the start is infeasible
* TRMM returns the rejected design, its SLSQP fallback uses constraint edges as variable bounds, its filter can cycle, and it reads an old column layout

**Missions**

* the start altitude of the next segment overwrites the last position of the previous one
* a stand-alone landing roll starts at take-off mass
* drag is not along the velocity in sideslip or bank
* a negative CLmax is exceeded
* dynamic-pressure segments use the density of stale altitudes
* pitch-rate segments use absolute time, so a second evaluation differs
* transition segments need replaced unpack functions; initial speed and vertical sign of the transition climb are off
* `linear_data` is not exact for N>=4 control points
* cos of degrees in the planet position; both horizontal integrals use vx

**Geometry and mass**

* `wing_planform` treats one-sided wings as two half spans
* average thickness of segmented one-sided wings is doubled; overwritten wetted area is one side
* segmented vertical wings: centre not rotated
* control surfaces that start exactly at a break and pass the next one are dropped
* span from chord on an untapered wing returns 0
* components inside components and loose components have no mass
* network moments use accumulated mass; several origins are summed
* main gear drifts on each call; vertical tail chord at 70% of span; hydraulics at the last wing
* fuel range wrong when total capacity is below 1e-6

**Atmosphere**

* pressure jumps up at 51 km
* a temperature deviation breaks hydrostatic balance
* altitudes below minus the planet radius return top-of-table values
* constant-temperature pressure jumps by more than 500 Pa at sea level, and the call overwrites the table
* latin hypercube with numpy bounds raises

**Batteries**

* capacity fade counted twice
* over-full after charge then discharge; energy below zero
* NMC cell current clipped in place to [0,8]
* entropic losses negative when charging
* fade may become negative
* `all(Re_max) > 10E2` is always False
* initialize_from_mass: total is not series times parallel; min_energy = max_energy
* circuit max_power includes the packaging factor

**Noise**

* a harmonic on a shared band edge counts twice; an empty band is 0 dB
* one-dimensional SPL_arithmetic input comes back uncombined
* tone correction only for the first step; bands 9, 16, 20 and an excess of exactly 20 get none; nsteps=0 returns None
* pnl uses one noy value for all rows and ignores the 24th band
* epnl/senel wrap around when starting loud and drop the last when ending loud
* default sideline microphone moves with height
* building microphones need N_x=N_y and ignore z0
* Fink: last row zero, vertical tail excluded, silent sources 0 dB, slats attenuated twice, Hp/Dn swapped, dBA only of the last step, triple-slotted flap jump, wheels other than 1,2,4 raise

**Saving**

* a nested entry called "keys" loses its whole node; entries named like methods leave the keys
* tuples, np.int64 and float32 silently become None; a list with an array raises
* 0-d arrays return as scalars; empty arrays lose trailing dimensions

**Engines and networks**

* sizing with `conditions` passed raises UnboundLocalError (`planet`)
* network.SFC_adjustment is ignored
* exit_stagnation_pressure reported to noise is static
* inlets and nozzles with pressure ratio other than one change total temperature
* shaft off-take ignored in sizing; a stale off-take stays in the low-pressure turbine
* fuel flow 0 when thrust is zero or not a number
* negative fuel-air ratio when the burner is asked to cool
* afterburner sets nondim_ratio but the combustor reads nondim_mass_ratio
* turbojet `+=` changes the combustor output in place
* Supersonic_Nozzle: exit pressure 1 Pa from Mach 10 on
* Ramjet/Scramjet/Liquid_Rocket/Solar_Low_Fidelity lack network_y_axis_rotation: KeyError in the container
* the container resets additional fuel sums
* sea-level "static" thrust is computed at Mach 0.01
* supersonic combustor parenthesis error (Combustor.py 340)
* theta_beta_mach divides by zero on one curve

**Drag**

* parts with one name overwrite each other in the breakdown
* no network and no nacelle: ZeroDivisionError in the pylon drag
* a nacelle at several origins: friction once, excrescence several times; pylon averages divide by the number of networks
* viscous induced drag squares the area ratio
* fuselage form factor jumps at Mach 0.95
* unswept wing at exactly Mach 1 gives nan
* excrescence drag falls beyond 2075 square metres of wetted area and is negative beyond 4190
* asymmetry_drag catches AttributeError where NameError is raised

**Flight envelope**

* positive limit asked for is ignored above 50000 lb
* a negative limit without its sign is taken as a positive lower limit
* equal manoeuvre speeds: neither branch raises the cruise speed
* minimum cruise speed uses 1.72424 where 1.32 squared is 1.7424 (slightly conservative)
* when the gust at the manoeuvre speed exceeds the negative limit, the load at cruise speed is left at the manoeuvre limit
* compute_max_lift_coeff is called with two arguments, so a missing maximum lift coefficient always ends in ValueError

**Field lengths and payload-range**

* a stowed flap lowers maximum lift (constant -0.014 in the deflection fit)
* flap types other than single and triple, "none" included, count as double slotted
* flap lift is divided by the reference area twice
* landing: "config" is an undefined name, so user constants are never read (the NameError is swallowed)
* find_take_off_weight_given_tofl extrapolates to 1.1 MTOW, clamps silently at both ends, and leaves takeoff mass at 1.1 MTOW
* payload_range: with small tanks the third corner exceeds the zero-fuel limit and the second is flown heavier than loaded
* payload_range returns attributes of the function object itself: all results alias

**Static stability**

* convert_sweep: any old fraction other than 0 takes the quarter-chord sweep
* trapezoid_ac_x: a symmetric wing of taper 1 has its mean chord placed at the tip (span/2) instead of half way
* extend_to_ref_area: the whole origin is shifted (a number added to an array)
* datcom at exactly Mach 1 sets section slope and beta to 1: the slope drops below all subsonic values
* taw_cnbeta extends the fin in place, so later evaluations see another aspect ratio
* taw_cmalpha: the moment at zero incidence has the opposite sign from the moment slope; cmac of vertical surfaces is counted
* Fidelity_Zero divides by the main wing slope, so the neutral point reported is not neutral with a tail; the margin is added to all three coordinates
* taw_cnbeta uses the last fuselage of the loop and is refused (UnboundLocalError) without one

**Dynamic stability**

* cl_beta is half the strip-theory value that goes with cl_p
* Fidelity_Zero passes Izz (tensor[2][2]) to roll
* Fidelity_Zero sets Cy_beta = 0, so the full linearised equations are never run
* lateral_directional gives ascending coefficients to np.roots: roots are reciprocals; damping ratio wrong by 2/frequency^2; labels swapped for a stable aircraft; IndexError for a neutral spiral
* longitudinal does one step of an iteration: modes are approximate
* compute_dynamic_flight_modes: AttributeError when both mass and max_takeoff are set; Cm_q stands for Cm_u; MwDot lacks a chord; inertia products element by element; argmax over signed complex eigenvector entries; four real lateral eigenvalues fall through; the aileron lookup uses the tag left from the elevator loop

**Power trains**

* Motor.omega below the no-load voltage: negative speed with positive torque, or speed 0 with unbalanced torque; with zero power coefficient speed 0
* Motor_Lo_Fid with zero no-load current gives zero torque and current; an efficiency above (1-sqrt(io res/v))^2 is silently missed
* Gearbox multiplies both speed and torque by the ratio
* Electronic_Speed_Controller clips the voltage but not the current
* Solar_Low_Fidelity multiplies the current by a throttle above 1 twice
* Battery_Propeller: avionics current at nominal voltage, power at actual voltage; propeller_thrust column cumulative; electronics efficiency uses the last propeller only
* Internal_Combustion_Propeller_Constant_Speed returns the thrust of the last propeller only
* Internal_Combustion_Engine: negative available power in thin air; jump at the flat-rating altitude on non-standard days
* Solar_Radiation: arccos missing in the azimuth; earth radius in metres over a thickness in kilometres
* electric_motor_sizing divides the propeller speed by the gear ratio, Motor multiplies
* larminie treats the demand as that of one cell

**Weights**

* Weights_Transport and Weights store the empty weight as operating_empty
* FLOPS and Raymer count the nacelles under propulsion and under structures; the breakdown is the last network's
* weight_transport.py: the systems reduction factor is always set to 0; a structural factor erases the individual ones in the settings
* FLOPS/payload.py adds cargo in pounds to kilograms
* tail_vertical.py compares t_tail with the string yes
* wing_main.py (segments): moment about the root instead of the station
* FLOPS/wing.py: short_range is never a value of accessories; "/ +" in the denominator of the detailed method
* General_Aviation: fuel system left out of the empty weight; span passed as taper; wrong parenthesis in the flight controls; negative furnishings; q over mass pounds; unbound names without horizontal tail or with gear and no fuel
* General_Aviation/landing_gear.py assigns to the class Data: every later object seems to have main and nose gear
* BWB analysis calls empty with two arguments, which takes one; the aft body is not in the fuselage mass
* Human_Powered: a fuselage always ends in an exception
* seen, not modelled: FLOPS systems look for a key nacelle that never exists; FLOPS and Raymer wt_systems in pounds; Raymer nacelle and starter use engine kilograms as pounds; FLOPS fuselage charged once per fuselage; the detailed FLOPS wing drops the last two stations

**Weight build-ups**

* Common/wing.py 325: torsion skin thickness multiplied by the first grid spacing
* Common/prop.py 245: slice [0::-1] gives the first point only
* Common/prop.py 205, 264: left sums carry less than the design thrust (66 percent with the default 5 points)
* Common/fuselage.py 151: mass of the torsion keel lacks the length
* Common/wiring.py 74: abs of a list; 69: at least one motor
* eVTOL/empty.py 256-290: servo weight is left over from earlier units; hubs by declared number, blades by list; gear mass stored as .mass, tail rotor stored nowhere
* eVTOL/empty.py 276: a Battery_Propeller network with both kinds of rotors has no lift_rotors
* eVTOL/converge_evtol_weight.py 78: convergence at iteration 100 is reported as failure

**Rotors**

* Rotor.py 296: any swept blade raises ValueError (shapes of the repeated radius and of the sweep differ)
* Rotor.py 463-466: in-plane force uses the rotation speed, not the local speed
* Rotor.py 530-550: coefficients at rest are nan; closed throttle leaves them
* Rotor.py 637-652: orientation Euler angles are used as a rotation vector
* compute_fidelity_zero_induced_velocity.py: one control point, last propeller only
* propeller_design.py 208: a thrust that cannot be reached is lowered silently; 104: blade ends one step before the tip

**Vortex lattice**

* compute_wing_induced_velocity.py 360-397: off its plane a supersonic panel acts only where 0.8 X^2 >= (M^2-1) R^2
* compute_wing_induced_velocity.py 80-83: arccos loses the sign of anhedral; the normal influences of such panels are those of another direction
* VLM.py 263-267: matrix rows are not scaled to the unit normal of the right-hand side when a surface slopes both ways
* compute_RHS_matrix.py 205-207: CCNTL is computed from SCNTL instead of SLOPE
* compute_RHS_matrix.py 88-122: the return inside the loop lets only the first network act on the wings
* VLM.py 154-159: a centre of gravity at x = 0 counts as missing; only vertical wings raise UnboundLocalError

**Panels**

* generate_vortex_distribution.py 598, 602: control line ends take the height of another place of the panel (zeta_a2, zeta_b1)
* generate_vortex_distribution.py 501: a vertical wing with dihedral of exactly 90 degrees collapses
* deflect_control_surface.py 357-392: the hinge direction computed for the first side is taken as given for the second, so a stabilator without constant hinge deflects both halves in opposite senses
* deflect_control_surface.py 357-392: the kept direction of a vertical all-moving surface has y and z exchanged from the second deflection on; a hinge vector given by the user is also overwritten

**Control surface cutting**

* populate_control_sections.py 52-110: no case for a surface starting exactly at a segment and ending past the next: its first part is lost
* make_VLM_wings.py 203-212: a surface partly covered by another on the same edge disappears silently
* make_VLM_wings.py 447-449: the origin of a surface on a downward vertical wing is moved up
* make_VLM_wings.py: break names are rounded to three decimals, so two segments that round alike would overwrite one another (not modelled)

**Supersonic drag**

* compressibility_drag_total.py 99: the wave drag anchoring the drag rise is taken at the beginning of the drag rise, the setting says at its end
* compressibility_drag_total.py 189: values of supersonic conditions are taken from the front of the unfiltered list, so they belong to other conditions unless supersonic ones come first
* wave_drag_lift.py 71-96: the fitted polynomial is negative between 0.178 and about 0.19 and above about 2.95
* miscellaneous_drag_aircraft.py: nacelles placed several times count once; upsweep drag is added even without a fuselage

**Stall aerodynamics**

* finite_aspect_ratio.py 60: the stall angle of the finite wing is computed but not stored, so the section angle is used; the exponent of pre_stall_coefficients.py 66-67 is then always clipped and the maximum lift coefficient never reached (C137_maximum_refuted).
* post_stall_coefficients.py 103, 110: the sine is taken of the bare ratio of angles, so at 90 degrees drag is not the maximum (C138_broadside_refuted).
* section_properties.py 80: `(1+5)**tc*tc` where `1+5*tc**...` seems meant.
* post_stall_coefficients.py 83, 87: a list holding a mask is used as an index, which newer numpy refuses.

**Costs**

* compute_industrial_costs.py 222-233: an unknown type of aircraft leaves the interior index unbound: UnboundLocalError.
* Hourly rates are straight lines in the year, negative before about 1966 (C140_early_refuted).
* distribute_non_recurring_cost.py 97: facilities are multiplied by the tooling money of the year instead of its share (C141_facilities_refuted).
* Production tooling is negative when fewer aircraft than prototypes are built.

**Units**

* Core/Units.py 49-51: multiplication changes the unit object in place, so a unit kept in a variable converts only once (C144_reuse_refuted).
* Core/Units.py 85-88: unit / number is computed as number / unit (C144_halving_refuted).
* unit.py 273, 341-346: powers leave entries with exponent 0, whose later addition deletes a missing key: KeyError for Units.m**0 (C142_nothing_refuted).
* unit.py 807-814: a prefixed temperature unit has no factor: TypeError (C143_prefix_refuted).
* Core/Units.py 76-79 with unit.py 952-955: the printed units are read back with delta_ units, so dividing by a compound unit with a temperature raises (C143_compound_refuted).
* unit.py 712: a prefixed alias overwrites an existing definition (kgram) and makes it circular (C145_overwrite_refuted).
* unit.py 712: names with two prefixes become known after the single prefix was used (C145_history_refuted).
* unit.py 898: _dedup_candidates never looks at the second candidate.

**Unit tools**

* util.py 246-249: multiplying by the largest denominator instead of the common one leaves fractional exponents (C147_integer_refuted).
* util.py 74: pi_theorem of dimensionless quantities raises IndexError (C147_plain_refuted).
* util.py 264-272: solve_dependencies loops forever on circular definitions (C148_ends).

**Rockets, ramjets and scramjets**

* Rocket_Thrust.py 119-131: thrust is for all engines, the mass rate for one (C150_engines_refuted).
* Rocket_Thrust.py 162-177: sizing stores a mass flow nothing reads (C150_design_refuted).
* liquid_rocket_sizing.py 101: planet is unbound when the caller supplies conditions (C150_conditions_refuted).
* de_Laval_Nozzle.py: reads pressure_ratio, which the defaults lack; pressure_ratio_converge/diverge are never read (C151_settings_refuted); with a loss throat and exit pass different masses (C151_mass_refuted).
* Combustor.py compute_rayleigh: ignores the pressure ratio of the burner; negative fuel when the inflow is hotter than requested (C152_cold_refuted).
* nozzle_calculations.py 67: the equation also has negative Mach numbers as roots (C149_negative_refuted).
* Supersonic_Nozzle.py 230-337: area limits do not hold with a shock, the shock costs no stagnation pressure, the exit pressure jumps (C153_limits_refuted, C153_jump_refuted).
* Combustor.py 340: misplaced parenthesis in the stagnation temperature (C154_total_refuted).
* Scramjet.py: the reference state of the thrust is never updated, so the air flow is that of sizing (C154_airflow_refuted).

**Further segments**

* optimize.py 58: the optimum returned by fmin_slsqp is not stored; the segment keeps the state of the last evaluation (C157_final_refuted).
* optimize.py 239: the altitude constraint divides by the end altitude: reversed below sea level (C157_below_refuted); 302: isnan of any() is never true (C157_nan_refuted); 122: an array is compared with a Data, so the cache never applies.
* Climb/Optimized.py 66-67: zero speeds are replaced after they were copied, without effect.
* Battery_Charge_Discharge.py 25: overwrites the margin (C158_margin_refuted); 31-33: a first segment takes its energy for the capacity (C158_first_refuted); 37-42: only the last network counts (C158_packs_refuted).
* append_initial_battery_conditions.py 69-71: temp_dev unbound without a deviation (C158_deviation_refuted).
* Climb/Constant_Speed_Constant_Angle_Noise.py 103: n points span n half seconds, so for any placing of the points some step exceeds half a second (C159_step_refuted); the segment also keeps the default Chebyshev points, unlike the descent.
* Frames.py 202-204: cosine of the latitude change in degrees instead of the latitude in radians (C160_parallel_refuted, C160_oblique_refuted).

**Lifting line**

* Lifting_Line.py 69-70 (Methods): tip and root twist are exchanged when there are no segments (C164_twist_refuted).
* Lifting_Line.py 117: both comparisons are strict, so a station at a break keeps the root values (C164_break_refuted).
* Lifting_Line.py 153, 156: the cumulative sums pair harmonic n with station n only, and 156 takes sin(n*A) for sin(n*theta); induced drag comes out odd in the angle of attack (C165_odd_refuted, C165_negative_refuted).
* Analyses/Aerodynamics/Lifting_Line.py 210-211: fromkeys gives all wings one array (C166_wings_refuted); 284: the drag model of a wing is fitted to its lift.

**Geometry**

* compute_naca_4series.py 70: names with camber and position digit 0 (such as 2012) raise ZeroDivisionError (C167_errors); 86, 94: the reported maximum thickness is exceeded at 30% chord (C167_maximum_refuted); 93: camber_coordinates is one number.
* estimate_naca_4_series_internal_volume.py 89: the lower front spar is interpolated with the slope of the upper one, so on tapered wings the middle section is too thin (C168_tapered_refuted).
* fuselage_planform.py 85-92: the floors break the sum of the lengths (C169_clamp_refuted); 95: fore and aft space are counted as seats on a second call (C169_again_refuted).
* rescale_non_dimensional.py 132: all engines are placed from the first (C170_engines_refuted).

**Optimisation tools**

* line_plot.py 79-83, carpet_plot.py 79-86: the problem is left at the last grid point (C172_restored_refuted).
* read_optimization_outputs.py 49-55: files of problems without constraints cannot be read (C173_no_constraints).
* write_optimization_outputs.py 47, additive_setup.py 90-91 and 610, Surrogate_Optimization.py 88-99 use the older table with pairs of bounds; with separate bounds the record divides by the upper bound (C173_scaled_refuted).
* additive_setup.py 710, 712, 733, 735: SLSQP and SHGO compare the scaled constraint with the unscaled bound (C174_slsqp_refuted); 148: SLSQP is not given the bounds of the inputs; 215: problems of one input raise IndexError (C174_errors).

**Files and redirection**

* D3JS/Tree_Element.py 67: append uses a name that is not defined (C177_append); save_tree.py 101-102: an empty dictionary looks like the text {} (C177_empty_refuted).
* XML/Data.py 128-139: only the tag of the root is made a valid name, keys are not.
* redirect.py 73: an object entered again inside itself forgets the first streams (C178_nested_refuted).
* redirect.py 177-180 and 229-232: what has the name is removed before the copy or move is tried, so a missing file destroys it (C179_pull_missing, C179_twice_refuted); 235: the folder is not changed back when a push fails (C179_back_refuted).

**Cryogenics**

* cryocooler_model.py 59-61: one target below 1 K raises every target below 5 K (C180_points_refuted); 73-79: temp_diff is never used, so the cooler announced as disabled goes on (C180_disabled_refuted).
* Coolant_use.py 54-65: strict comparisons on both sides lose the heat of evaporation at the boiling point (C181_split_refuted) and leave no cooling at all in one case (C181_nothing).
* Cryogenic_Lead.py 118 writes self.unpowered_Q, lead_calculations.py 123 reads outputs.unpowered_Q, which stays 0 (C182_unpowered_refuted).
* lead_calculations.py 161-164: the guess is doubled when it is already too high, so the search never ends; 144 and 169: the first step down lands on the hot end and divides by zero (C182_overload_refuted, C182_far_overload_refuted).
* dynamo_efficiency.py 41-43: a single 0 is returned for the whole array, and is divided by (C183_out_of_range). HTS_Dynamo_Supply.py 93-94: the speed is never used.

**Airfoil panel method**

* aero_coeff.py 48 takes the pressure of the first point of each segment: a symmetric outline under symmetric pressure at no incidence gets lift (`C185_symmetry_refuted`).
* airfoil_analysis.py 462 computes the drag from the last momentum thickness only, at the upper trailing edge (`C185_drag_one_sided`).
* thwaites_method.py 107 takes the absolute value of the friction: laminar separation does not show (`C186_separation_refuted`).
* heads_method.py 170-188: the shape factor is 3 below H1 = 3.3 and exceeds every bound just above (`C186_shape_jump_refuted`).
* thwaites_method.py 85-98 and heads_method.py 108-124 leave a single jump alone, and overwriting with old predecessors may leave jumps (`C186_smoothing_refuted`).

**Electric ducted fans**

* ducted_fan_sizing.py 163 and both turboelectric sizings use `planet`, bound only where no conditions are given: passing conditions always raises UnboundLocalError (`C187_conditions_refuted`).
* Battery_Ducted_Fan.py 113 and Serial_Hybrid_Ducted_Fan.py 127 divide by the controller's voltage, 0 at a closed throttle: no number comes out (`C188_idle_refuted`); above full throttle the power is overstated (`C188_over_throttle`).
* Turboelectric_HTS_Ducted_Fan.py 143, 160, 165 multiply the rotors' power by the number of engines twice in the supplies' losses (`C189_leads_refuted`), so generators sized by serial_HTS_turboelectric_sizing cannot feed their own design point (`C189_undersized_refuted`).
* Turboelectric_HTS_Dynamo_Ducted_Fan.py 199 adds the rotors' power, the dynamos' shaft power and the controllers' input, of which only the last is drawn from the bus (`C189_dynamo_refuted`).
* Both turboelectric networks charge the motors with thrust times speed, not with the power the fan gives to the air (`C189_free_energy_refuted`).

**Airfoil files**

* import_airfoil_geometry.py 60-62, 85: `lednicer_format` is bound only when the first digit is 1; a title such as "2032c" raises UnboundLocalError (`C191_digit`).
* import_airfoil_geometry.py 144 compares texts, not numbers: "9.5e-05" after "0.0002" ends the upper surface early (`C191_text_refuted`).
* import_airfoil_geometry.py 148-176: without a point at exactly x = 0 the most forward point is only in the upper surface and is then dropped from the outline (`C191_lost_refuted`).
* import_airfoil_geometry.py 121: a blank line, also one at the end of the file, raises IndexError in Selig's layout (`C191_blank`).
* compute_airfoil_properties.py 259-260 looks for the measured end values among the values picked for the grid; when the grid misses them the call fails with IndexError (`C194_missed_refuted`).

**Solver set-ups**

* pyoptsparse_setup.py 192, pyopt_setup.py 187 and Surrogate_Problem.py 46 test isnan of any(), a truth value: constraints that are not numbers are never reported (`C195_nan_constraint_refuted`).
* pyoptsparse_setup.py 196-200 keys answers by name: an output that is objective and constraint loses the objective's value (`C195_shared_refuted`).
* ipopt_setup.py 75 takes the bound as written while the values are divided by the scale: any scale other than the units changes the constraint (`C196_scale_refuted`); 69-70 give the limits the shape of the table (`C196_shape`).
* pyopt_surrogate_setup.py 59 multiplies with the units a second time (`C197_units_refuted`); 78 repeats '>' where '=' is meant, so equalities are dropped (`C197_equality_refuted`).
* svr_surrogate_functions.py 103-104 with the default imin = -1 leave nothing out (`C197_last_refuted`); 109 predicts at the last point whichever is left out (`C197_elsewhere_refuted`).

**Performance**

* asymmetry_drag.py 93-96 expects AttributeError for an unset local; UnboundLocalError is raised instead and the message is never printed (`C198_missing`).
* asymmetry_drag.py 100 uses `origin[0]` and `center_of_gravity[0]`, whole rows: the answer has three elements (`C198_row_refuted`), or TypeError for a plain aerodynamic centre (`C198_plain`).
* asymmetry_drag.py 66, 73 and windmilling_drag.py 59, 66 read `wing.sref`, which no wing defines (`C199_area`).
* windmilling_drag.py 70-72 counts the nacelles of running engines too (`C199_all_refuted`).
* electric_V_h_diagram.py 28: the default of 20. grid points makes numpy.linspace raise TypeError (`C200_default_refuted`); 94-98 and 152: drag and propeller power ignore the temperature deviation that the density uses.

**Engine decks**

* Propulsor_Surrogate.py 129-130 multiply the fuel flow with the number of engines but not the thrust (`C203_engines_refuted`).
* Propulsor_Surrogate.py 132-134 set thrust and fuel flow to 0 at throttle 0 although the extended surrogate tends to the prediction there (`C203_jump_refuted`).
* Propulsor_Surrogate.py 220-224 offers support vector regression, whose predictions have one dimension too few for 133 and 139 (`C203_kinds`).

**AVL geometry**

* create_avl_datastructure.py 192-199: a panel with anhedral is laid to the other side and upwards, while an unsegmented wing (238-241) goes down (`C204_anhedral_refuted`).
* create_avl_datastructure.py 135-145, 198: with dihedral the taper part of the sweep is divided by the cosine too, so the quarter-chord line is not swept as given (`C204_quarter_chord`).
* create_avl_datastructure.py 314: the outer twist is multiplied by the root chord at breaks of control surfaces (`C205_breaks`).
* create_avl_datastructure.py 155-160, 286-295: the section at the tip, and those at ends of segments where no surface starts or ends, never carry control surfaces (`C205_only_there`).
* create_avl_datastructure.py 301-304: a control surface at the root of a wing without segments raises IndexError (`C205_plain_root_refuted`); 222-228, 400-402: so does, as AttributeError, a coordinate file (`C205_plain_foil_refuted`).
* write_mass_file.py 70-75: a vehicle with both masses given is refused (`C206_mass`).

**Jet noise**

* primary_noise_component.py 47: the loop runs over 23 of the 24 bands, so the last band has no level, only plug effects added up over the steps (`C207_last_band_refuted`).

**Aerodynamic derivatives**

* compute_aero_derivatives.py 70, 161: pitch and throttle are perturbed in proportion, so at zero the derivatives are 0/0 (`C209_level_refuted`, `C209_idle_refuted`).
* compute_aero_derivatives.py 257: the free-stream speed less the inertial velocity vector: three columns, the first right in level flight only (`C209_speed`).
* compute_aero_derivatives.py 249-250: side wind is counted in the speed but kept in the vector (`C209_side_refuted`).

**OpenVSP wave drag**

* OpenVSP_Wave_Drag/compressibility_drag_total.py 128: `drag_div` takes four arguments and is given five, so the analysis raises TypeError for every vehicle with wings; without wings `cd_c` is unbound (`C210_total_refuted`).
* OpenVSP_Wave_Drag/compressibility_drag_total.py 112: the row at Mach 1.05 is made with default numbers of slices and rotations and then used whatever the settings (`C210_settings_refuted`).

**Panels of one wing**

* extract_wing_VD.py 54: products of int16 numbers of panels wrap at 32768 (`C211_large_refuted`).

**Equivalent area**

* lift_equivalent_area.py 73: the shift uses the tangent of the Mach angle instead of its inverse (`C212_plane_refuted`).

**Airfoil masks**

* convert_airfoil_to_meshgrid.py 66-68: the number of rows is not divided by the chord, while the indices are: the top of an airfoil with a chord below 1 is cut off (`C213_chord_refuted`).

**Containers of analyses**

* Analyses/Analysis.py 217: `self.items` is not called, so `initialize` of every container raises TypeError (`C214_initialize_refuted`).

**Rotor wake convergence**

* fidelity_one_wake_convergence.py 44, 83: the first change is put at 1, so with a tolerance of 1 or more the loop is not entered and `va` is unbound (`C215_tolerance_refuted`).
* fidelity_one_wake_convergence.py 56: `nan > tol` is false, so induced nan ends the loop as if converged (`C215_nan_refuted`).

**Wing wake**

* generate_wing_wake_grid.py 55-57: for a length between 1 and 1.01 points are put outside the length (`C216_length_refuted`).
* compute_wing_wake.py 102: the test is against the leading edge, the formula needs the trailing edge: nan over the chord (`C218_chord_refuted`).

**Certification noise**

* sideline_noise.py 44, flyover_noise.py 43, approach_noise.py 43: the number of control points is set after the mission was flown, so the first call does not use it (`C219_late_refuted`).
* sideline_noise.py 71, flyover_noise.py 59: `noise_segment.missions` does not exist (`C219_negative_refuted`).

**Propeller in a wake**

* compute_propeller_nonuniform_freestream.py 84-86: the speeds of several conditions are aligned with the azimuths (`C220_conditions_refuted`).
* compute_propeller_nonuniform_freestream.py 85: the comment says positive outward, the formula is the component inwards (`C220_inflow`).

**Mach slices**

* mach_slices.py 96: the tangent of the Mach angle where its inverse belongs (`C221_places_refuted`).

## 5. Trusted base

* The Coq 8.16.1 kernel. No kernel check is switched off, no axiom is added by this development, no functor or module
  type is used, nothing is admitted.
* The standard-library axioms listed below per theorem. They are the construction of the real numbers
  (`ClassicalDedekindReals.sig_forall_dec`, `ClassicalDedekindReals.sig_not_dec`), functional extensionality
  (`FunctionalExtensionality.functional_extensionality_dep`), excluded middle (`Classical_Prop.classic`) and, for two
  theorems, `ClassicalEpsilon.constructive_indefinite_description`.
* The reading of the python source that turned it into the model, cited per definition, and the simplifications stated in
  the model files: real numbers for floats; trees without sharing; external analyses, solvers, random numbers and numpy's
  inverse as universally quantified parameters.

### Axioms per theorem (output of `Print Assumptions`, grouped)

* **no axioms** ("Closed under the global context") — 163 theorems: C01_update_lookup, C01_update_keys, C01_update_type_error, C01_update_override, C01_update_frame, C02_update_idempotent, C02_update_self, C02_init_public, C03_append, C03_normalised, C03_normalise_idempotent, C04_history, C04_step, C04_fresh, C04_numbered, C04_extend_list_refuted, C04_append_always_succeeds_refuted, C05_deep_set_get, C05_deep_set_frame, C05_deep_set_total, C05_dotted, C05_index_set_get, C05_index_set_frame, C06_unpack_after_pack, C06_pack_after_unpack, C06_packed_length, C06_long_vector, C06_warning_exact, C06_short_vector_fails_refuted, C07_unpack_after_pack, C07_pack_after_unpack, C07_scalar_refuted, C07_rows_refuted, C08_keys, C08_keys_distinct, C08_items, C08_get, C08_get_int, C08_set_succeeds, C08_del_succeeds, C08_len, C08_len_refuted, C09_append_overwrites, C09_append_error, C09_distinct_kept, C10_restore, C10_chain, C10_override_kept, C10_base_propagates, C10_new_base_entry, C10_deleted_becomes_none, C10_broadcast_refuted, C11_concatenation, C11_row_offsets, C11_new_entry, C11_private_skipped, C11_absent_kept, C11_mismatch_discards_history_refuted, C11_array_over_scalar_refuted, C12_expanded, C12_kept, C12_others_untouched, C12_placeholder, C12_succeeds, C12_idempotent, C12_state, C12_idempotent_refuted, C13_runs_all_once, C13_succeeds, C13_stops_at_first_error, C14_set_values, C14_get_values, C14_two_aliases_refuted, C14_missing_alias_refuted, C14_star_position_refuted, C15_transparent, C15_runs_exactly_when, C15_after_exception_refuted, C16_no_constraints, C21_partition, C21_merge_then_unpack, C21_succeeds, C21_two_columns_refuted, C38_none, C46_round_trip, C46_again, C46_failure, C46_keys_refuted, C46_method_refuted, C46_list_refuted, C102_bwb_analysis_refuted, C123_accepted, C123_refused, C129_lists, C129_side, C129_mask, C129_every_panel, C146_shortest, C147_groups, C147_signs, C147_plain_refuted, C147_integer_refuted, C148_ends, C148_layers, C148_early, C157_fresh, C157_final, C158_discharge, C158_unknown, C161_unknown, C173_round_trip, C173_append, C173_no_constraints, C173_empty, C176_round_trip, C176_exact, C176_entries, C176_tags, C177_map, C177_map_only, C177_d3, C177_empty_refuted, C177_append, C178_restored, C178_captured, C178_nested_refuted, C178_again_refuted, C179_pull, C179_push, C179_same, C179_pull_missing, C179_back_refuted, C179_twice_refuted, C180_unknown, C184_panels, C187_conditions_refuted, C190_blocks, C190_one_block, C190_empty, C190_third_block, C190_not_numbers, C195_answers, C195_shared_refuted, C195_variables, C195_failure, C195_nan_constraint_refuted, C195_two_objectives, C196_pattern, C197_no_data, C197_left_out, C197_left_out_from_end, C197_last_refuted, C200_default_refuted, C211_wing, C211_all, C211_beyond, C211_large_refuted, C212_none, C214_evaluate, C214_tags, C214_stop, C214_compile, C214_initialize_refuted

* `ClassicalDedekindReals.sig_forall_dec` — 24 theorems: C14_scale_inputs, C14_convert, C17_points, C17_cost, C23_frame, C25_sum, C47_de_last_constraint, C47_de_equality_refuted, C55_last_refuted, C66_missing, C66_mixed_refuted, C77_shared_refuted, C103_shear_is_the_load_outboard, C119_other_rows, C145_stable, C145_plural, C157_nan_refuted, C161_weight, C193_table, C193_no_rows, C196_shape, C197_through_data, C197_elsewhere_refuted, C215_loss

* `ClassicalDedekindReals.sig_forall_dec` + `FunctionalExtensionality.functional_extensionality_dep` — 398 theorems: C14_limit_inputs, C14_limit_idempotent, C14_crossed_bounds_refuted, C16_sign, C16_enforced_bound, C16_equality, C16_scale_refuted, C16_unknown_sense_refuted, C17_gradient_exact, C17_jacobian_exact, C17_cost_table, C17_error_bound, C18_value_objective, C18_value_constraints, C18_gradient_objective, C18_gradient_constraints, C18_affine_objective, C18_affine_constraints, C19_region_nonempty, C19_radius_rule, C22_scaling, C23_mass, C23_weight, C23_bounded, C23_between, C23_fuel, C23_fuel_total, C24_product, C26_limit, C26_no_flow, C26_coefficients, C26_negative_limit_refuted, C30_moments_exist, C31_parts, C31_whole, C31_lost_refuted, C32_chord, C32_inverse, C32_untapered, C33_mass, C33_cg, C33_hull, C33_order, C33_lump, C33_moved, C33_massless, C33_cancelled, C33_inside_refuted, C33_loose_refuted, C34_single, C34_error, C34_networks_refuted, C34_origins_refuted, C34_longest, C35_range, C35_masses, C35_full, C35_mission, C36_altitude, C37_gravity, C37_density, C37_conductivity, C37_gamma, C39_ends, C39_range, C39_falls, C39_smooth, C39_symmetric, C40_cell, C40_between, C40_nodes, C40_exact, C40_outside, C40_fill, C43_cells, C43_cells_refuted, C43_circuit, C43_again, C44_attenuation, C45_first, C45_bounds, C45_straight, C45_tone, C45_gap_refuted, C45_later_refuted, C47_start, C47_bounds, C47_negative_scale_refuted, C47_pyopt_constraints, C47_de_refuted, C47_trmm_slsqp, C47_trmm_slsqp_refuted, C51_slices, C51_center, C51_criterion, C54_ground, C54_buildings, C54_uneven_refuted, C54_base_refuted, C57_combustor, C66_sum, C66_order, C66_extra, C66_extra_refuted, C71_excrescence, C71_excrescence_refuted, C72_limits, C72_formula, C72_refused, C72_refused_error, C72_user_refuted, C72_sign_refuted, C75_default_constants, C75_count, C76_range, C76_accuracy, C76_monotone, C76_safe, C76_short_refuted, C76_over_refuted, C77_refused, C77_corners, C77_tanks, C77_tanks_refuted, C77_search, C77_converges, C77_linear, C77_electric, C79_given, C79_no_chords, C81_shift, C81_neutral, C81_reported, C81_reported_refuted, C81_surfaces, C81_zero, C81_twist_refuted, C82_tail_factor, C83_roll, C83_roll_refuted, C83_spiral, C83_yaw_damping, C83_pitch_damping, C83_lag, C84_determinant, C85_factors, C85_exact_refuted, C86_mass, C86_dimensional_lateral, C86_vector_refuted, C87_power, C87_inverse, C87_gearbox, C88_rated, C88_controller, C88_controller_refuted, C88_gears, C88_gears_refuted, C89_available, C89_altitude, C89_power, C89_inverse, C89_ceiling_refuted, C90_charging, C90_piston, C90_piston_identical, C90_constant_speed_refuted, C92_sized, C92_geared_refuted, C92_fuel, C95_lost_refuted, C95_tube_relief, C96_attendants, C96_crew, C96_monotone, C96_payload, C96_payload_flops, C96_baggage, C96_seats, C96_no_coach, C96_systems, C96_tail_area, C97_fuse_index, C97_fuse_monotone, C99_short_range_refuted, C102_human_powered, C103_moment_is_load_times_arm, C103_loads_fall_towards_the_tip, C103_wings_share_the_weight, C103_thrust_shear_counts_motors_outboard, C104_caps_and_web_carry_the_load, C105_blade_load, C105_blade_load_refuted, C106_keel_refuted, C106_wiring_per_motor, C106_wiring_without_motors, C108_converged, C108_not_converged, C108_converges, C108_last_iteration_refuted, C109_widths, C109_linear_loading, C109_swept_blade_refuted, C119_transonic_panels, C119_transonic_row, C120_one_network, C120_all_networks_refuted, C121_sums_stay_in_their_strip, C122_main_wing, C122_largest_wing, C122_no_wing, C122_cg_at_the_nose_refuted, C124_surface_rows, C126_linear, C131_parts, C131_once, C131_whole, C131_start_refuted, C132_cut, C132_overlap_refuted, C132_nested_refuted, C140_escalation, C141_shares, C141_adds_up, C141_facilities_refuted, C145_history_refuted, C155_totals, C155_nox, C156_altitude, C156_time, C156_down_refuted, C157_final_refuted, C157_feasible, C157_below_refuted, C157_same, C158_energy, C158_times, C158_margin_refuted, C158_first_refuted, C158_packs_refuted, C158_backward_refuted, C158_initial, C158_deviation_refuted, C161_newton, C161_state, C161_glide, C161_glide_refuted, C161_range, C164_taper, C164_twist_refuted, C164_between, C164_break_refuted, C164_open, C167_mean_line, C170_bodies, C170_round_trip, C170_engines, C170_engines_refuted, C170_errors, C172_line, C172_index, C172_carpet, C172_units, C172_left, C172_restored_refuted, C173_scaled, C173_scaled_refuted, C174_data, C174_basic, C174_mei, C174_errors, C174_corrected, C174_edges, C174_slsqp, C174_slsqp_refuted, C175_plan, C180_reach, C180_points, C180_second_law, C180_cost, C180_points_refuted, C180_disabled_refuted, C183_efficiency, C183_shaft, C183_out_of_range, C183_speed, C183_supply, C183_rotor, C183_rotor_default, C186_laminar_shape, C186_laminar_shear, C186_separation_refuted, C186_smoothing, C186_smoothing_refuted, C188_battery, C188_hybrid, C188_over_throttle, C188_idle_refuted, C188_generator, C189_generators, C189_leads, C189_leads_refuted, C189_dynamo_refuted, C189_sizing, C189_undersized_refuted, C189_generator_mass, C191_lednicer, C191_selig, C191_untitled, C191_outline, C191_lost_refuted, C191_text_refuted, C191_digit, C191_blank, C191_trim, C191_origin, C191_ends, C192_round_trip, C192_between, C192_ends, C192_thickness, C192_files, C193_three, C193_files, C193_at_data, C193_bounds, C193_beyond, C194_overlay, C194_at_data, C194_drag, C194_answers, C194_missed_refuted, C195_constraints, C195_order_refuted, C196_constraints, C196_scale_refuted, C196_jacobian, C197_constraints, C197_units_refuted, C197_equality_refuted, C198_balance, C198_side, C198_sign, C198_tail, C198_stored, C198_first_network, C198_missing, C198_plain, C198_row_refuted, C199_area, C199_windmilling, C199_order, C199_all_refuted, C199_engine_out, C200_power, C200_alike, C202_inside, C202_outside, C202_bands, C202_continuous, C203_rows, C203_twice, C203_anchor, C203_idle, C203_flow, C203_engines_refuted, C203_kinds, C203_vector, C203_jump_refuted, C204_semispan, C206_written, C206_kept, C206_mass, C207_excitation, C209_level_refuted, C209_idle_refuted, C210_values, C210_cached, C210_succeeds, C210_failure, C210_total_refuted, C210_file, C210_settings_refuted, C213_extremes, C213_cells, C213_rows, C213_chord_refuted, C213_backward, C215_ends, C215_result, C215_prescribed, C215_everywhere, C215_tolerance_refuted, C215_nan_refuted, C218_taper, C219_points, C219_microphone, C219_straight

* `ClassicalDedekindReals.sig_forall_dec` + `ClassicalDedekindReals.sig_not_dec` + `FunctionalExtensionality.functional_extensionality_dep` — 271 theorems: C19_stops, C19_radius_positive, C19_steps, C19_centres, C19_returns_rejected_refuted, C19_leaves_bounds_refuted, C19_cycles_refuted, C24_rotation, C24_norm, C24_defined, C24_sequence, C24_axis, C24_angles_add, C24_nose, C24_wing, C26_freestream, C38_nodes, C38_rows, C38_first, C38_recovers, C38_linear_small, C41_charge, C41_balance, C41_full, C41_losses, C41_load, C41_throughput, C41_heat, C47_violation, C48_within_bounds, C48_result, C48_improves_start, C48_best_visited, C48_feasible_point_ignored_refuted, C70_wing, C71_thickness, C71_lift, C71_lift_refuted, C72_speeds, C72_order, C72_order_refuted, C72_required, C73_stall, C73_closed, C73_positive, C73_negative, C73_ascending, C73_negative_refuted, C75_stall, C75_engines, C75_takeoff, C75_thrust, C75_clmax, C75_climb, C75_landing, C75_landing_constants_refuted, C76_convex, C79_ac, C79_ac_refuted, C79_extend_refuted, C80_supersonic, C81_fuselage, C83_downwash, C83_phugoid, C83_dutch, C83_short_period, C84_refused, C84_modes, C84_unstable_spiral, C84_stable_refuted, C85_determinant, C85_refused, C85_frequency, C85_modes, C86_dimensional, C86_incidence_rate_refuted, C86_longitudinal, C86_lateral, C86_speed_refuted, C86_inertia_refuted, C88_motor, C88_limit, C88_unreachable_refuted, C88_ideal_refuted, C88_propeller, C88_energy, C88_energy_refuted, C91_noon, C91_declination, C91_path, C91_path_refuted, C97_wing, C97_fin, C97_ttail, C99_sweep, C99_three_quarter, C103_root_carries_the_design_lift, C104_section_area, C104_skin_length, C104_section_thickness, C104_wing_mass_grows, C104_unloaded_wing, C104_torsion_skin_refuted, C105_cap_inertia, C105_cap_inertia_refuted, C105_loop_ends, C105_loop_ends_refuted, C106_pads, C107_statement, C107_errors, C107_stored_propeller_masses, C107_stored_masses_add_up, C107_declared_and_listed_refuted, C107_servo_of_a_fixed_propeller_refuted, C108_too_many_propellers, C109_azimuths, C109_single_azimuth_refuted, C110_induction_is_perpendicular, C110_radial_flow_refuted, C111_coefficients, C111_off, C111_at_rest_refuted, C111_throttle_off_refuted, C111_backwards_refuted, C111_crosswind, C112_axes, C112_tilt, C112_euler_angles_refuted, C114_karman_tsien, C114_sonic_jump_refuted, C115_development, C115_contraction, C115_slipstream, C115_superposition_refuted, C119_own_wave, C120_onset_velocity, C120_panel_normal, C120_no_flow_through, C120_flow_left_over, C120_vorlax_slopes, C121_kutta_joukowski, C121_nose_moment, C121_axes_turn, C121_axes_agree, C121_lift_and_drag, C121_moment_centre, C121_symmetric_wing, C121_wings_add_up, C121_suction, C121_suction_pulls, C121_carrying_speed, C124_stations, C124_sections_kept, C124_too_few, C124_surface_lines_up, C125_strips, C126_neighbours, C126_across, C126_quarters, C126_middle, C126_chord, C126_leading_edge, C126_control_line_refuted, C127_mirrored, C127_upright, C127_upright_refuted, C128_area, C128_planform, C130_turned, C130_rigid, C130_hinge_stays, C130_history, C130_back, C130_mirrored, C130_stabilator_refuted, C130_rudder_refuted, C133_corners, C133_stations, C134_sears_haack, C135_places, C135_order_refuted, C135_nonneg, C135_square, C135_negative_refuted, C136_misc, C136_misc_order, C136_origins_refuted, C137_slope, C154_fuel, C156_speed, C157_bounds, C159_climb, C159_step_refuted, C159_descent, C160_meridian, C160_south, C160_east, C160_parallel_refuted, C160_oblique_refuted, C162_one_solution, C162_one_answer, C163_linear, C163_slope, C163_ellipse, C163_loading, C163_symmetric, C164_fair, C165_vertical, C165_odd_refuted, C166_totals, C166_lift, C166_drag_refuted, C166_wings_refuted, C167_thickness, C167_thickness_refuted, C169_sized, C169_given, C169_clamp_refuted, C169_again, C169_again_refuted, C169_round, C169_oval, C169_turned, C169_scaling, C175_refine, C175_none, C175_near, C182_heat, C182_optimum, C182_slope, C182_part_load, C182_unpowered_refuted, C182_overload_refuted, C182_far_overload_refuted, C184_panel, C185_force, C185_uniform, C185_linear, C185_symmetry_refuted, C187_momentum, C187_power, C187_no_fuel, C187_sized, C189_free_energy_refuted, C199_ratio, C199_ratio_rises, C200_stall, C200_table, C200_answers, C201_parabola, C207_mixing, C207_limits, C207_share, C207_installation, C207_attack, C209_faster, C209_side_refuted, C209_speed, C216_product, C216_mirror, C216_height, C216_span, C216_length_refuted, C217_radial, C217_angles, C217_cartesian, C217_fails, C220_inflow, C220_size, C220_even, C220_conditions_refuted

* `ClassicalDedekindReals.sig_forall_dec` + `Classical_Prop.classic` + `FunctionalExtensionality.functional_extensionality_dep` — 2 theorems: C38_linear_refuted, C38_linear_affine

* `ClassicalDedekindReals.sig_forall_dec` + `ClassicalDedekindReals.sig_not_dec` + `Classical_Prop.classic` + `FunctionalExtensionality.functional_extensionality_dep` — 553 theorems: C20_chained, C20_elapsed, C20_start, C20_battery, C20_battery_state, C20_height, C20_landing_mass_refuted, C22_time, C25_drag, C25_lift, C25_angles, C25_total, C25_sizes, C25_sideslip_refuted, C25_bank_refuted, C27_start, C27_inherit, C27_altitude, C27_level, C27_seam_refuted, C27_speed, C27_rate, C27_clock, C27_mach, C27_equivalent, C27_calibrated, C27_pressure, C27_slope, C27_distance, C27_cruise, C27_cruise_mach, C27_loiter, C27_loiter_speed, C27_accelerate, C27_cruise_pressure, C27_pressure_time, C27_hover_vertical, C27_pressure_refuted, C28_pitch_rate, C28_again_refuted, C28_inherit, C28_transition, C28_climb_transition, C28_transition_start_refuted, C29_area, C29_round_trip, C29_mac, C29_sweep, C29_center, C29_extent, C29_flap, C29_one_sided_refuted, C30_defined, C30_area, C30_mac, C30_mac_bounds, C30_sweep, C30_center, C30_divided, C30_trapezoid, C30_segments, C30_thickness, C30_thickness_refuted, C30_wetted_refuted, C30_vertical_refuted, C32_mean_station, C34_positions, C34_main, C34_wings, C34_vertical_refuted, C34_mass_kept, C34_gear, C34_again, C34_drift, C34_again_refuted, C36_rows, C36_below, C36_above, C36_temperature, C36_breaks, C36_continuous, C36_bounds, C36_falls, C36_hydrostatic, C36_deviation, C36_positive, C36_gas, C36_balance_refuted, C36_pressure_refuted, C36_centre_refuted, C37_viscosity, C37_sutherland, C37_sound, C37_flight, C38_total, C38_differentiates, C38_integrates, C38_mission, C39_soft_max, C39_soft_bounds, C39_soft_up, C41_voltage, C41_full_voltage, C41_nmc_charge, C41_nmc_balance, C41_nmc_full, C41_nmc_losses, C41_nmc_losses_refuted, C41_nmc_voltage, C41_nmc_throughput, C41_nmc_throughput_refuted, C42_irreversible, C42_day, C42_worst, C42_gentle, C42_costs, C42_positive_refuted, C43_meets, C43_least, C43_scales, C43_soft_refuted, C43_ragone, C43_ragone_best, C43_ragone_optimum, C44_energy, C44_unique, C44_loudest, C44_most, C44_order, C44_groups, C44_equal, C44_monotone, C44_shift, C44_pressures, C44_bands, C44_bands_total, C44_edge_refuted, C44_weighted, C49_coherent, C49_position, C50_rows, C50_temperature, C50_hydrostatic, C50_gas, C50_again, C50_pressure_refuted, C52_ambient, C52_balance, C52_single, C52_pack, C52_fast_refuted, C53_floor, C53_noisiest, C53_last_band, C53_gap_refuted, C53_exposure, C53_effective, C53_shift, C53_most, C53_wrap_refuted, C53_end_refuted, C54_approach, C54_flyover, C54_sideline, C54_moving_refuted, C54_relative, C55_wing, C55_flap, C55_gear, C55_slat, C55_flap_peak, C55_slots_refuted, C55_total, C55_vertical_refuted, C55_silent_refuted, C55_units, C56_heavier, C56_double, C56_shevell, C57_ram, C57_compressor, C57_stages, C57_turbine, C57_inlet, C57_inlet_shock, C58_first_law, C58_exhausted, C58_runs, C59_nozzle, C59_mass, C59_supersonic, C60_momentum, C60_throttle, C60_fuel, C60_no_number, C60_idle_refuted, C61_design, C61_again, C61_independent, C61_off_take_refuted, C62_restored, C62_results, C63_function, C63_fraction, C64_normal, C64_angle, C64_weak, C64_oblique, C64_train, C64_train_cut, C65_off, C65_burners, C65_afterburner_refuted, C67_parasite, C67_stored, C67_total, C67_segments, C67_segment, C67_wetted, C67_vehicle, C67_defined, C67_order, C67_again, C67_tag_refuted, C67_glider_refuted, C67_places_refuted, C68_given, C68_computed, C68_span, C68_viscous_refuted, C69_turbulent, C69_factors, C69_refused, C69_ends, C69_positive, C69_laminar, C70_wing_drag, C70_fuselage, C70_jump_refuted, C70_nacelle, C71_rise, C74_sum, C74_slat, C74_flap, C74_stowed_flap_refuted, C74_unknown_flap_refuted, C74_speed, C74_reference, C74_reference_refuted, C78_geometry, C78_round_trip, C78_taper, C78_wing, C78_wing_refuted, C79_mac, C79_extend, C80_subsonic, C80_sonic_refuted, C80_history, C80_history_refuted, C82_refused, C82_shares, C82_fuselage, C82_order_refuted, C83_roll_damping, C83_dihedral_refuted, C86_numbers, C86_labels, C86_no_pair_refuted, C87_balance, C87_voltage, C87_load, C87_low_voltage_refuted, C87_low_voltage_cases, C87_unloaded_refuted, C89_standard, C89_jump_refuted, C90_single, C90_sum, C90_identical, C90_battery, C90_efficiency_refuted, C90_columns_refuted, C90_lift_cruise, C90_solar, C91_zenith, C91_clock, C91_higher, C91_flux, C91_level, C91_azimuth_refuted, C92_scaling, C92_scaling_mass, C92_heavier, C92_voltage, C92_stack, C92_demand, C93_closes, C93_leaves, C93_success, C93_failure, C93_operating_empty_refuted, C94_networks, C94_components, C94_total, C94_suave_closes, C94_parts, C94_nacelles_twice, C94_last_network, C95_factors, C95_systems_refuted, C95_again, C97_engines, C97_installed, C97_tail, C98_integral, C98_cut, C98_bending_refuted, C98_twice, C99_relief, C99_bounds, C99_den_refuted, C99_den_low, C100_success, C100_failure, C100_closes, C100_fuel_system_refuted, C100_taper_refuted, C100_controls_refuted, C100_furnishings_refuted, C100_wing_units, C101_own_gear, C101_history, C101_independent_refuted, C101_last, C102_bwb_closes, C102_bwb_fuselage_refuted, C102_bwb_grows, C102_uav, C102_hp_load, C102_hp_grows, C106_fuselage_grows_with_takeoff_weight, C106_wetted_area_grows_with_the_square, C110_power_balance, C110_no_more_out_than_in, C111_in_plane_force, C111_disc_and_axial_agree, C111_axial_ignores_crosswind_refuted, C113_tip_loss, C113_reversed_inflow, C114_never_zero, C114_lift_curve, C114_negative_stall_refuted, C114_drag_correction, C114_unknown_airfoil, C116_request, C116_thrust, C116_power, C116_efficiency, C116_blade, C117_influence_is_biot_savart, C117_either_end_first, C117_same_everywhere, C118_prandtl_glauert, C118_left_and_right, C119_nothing_ahead_of_the_cones, C119_cones_cut_off, C119_whole_cone_refuted, C120_normal_component, C120_falling_panels, C120_falling_panels_refuted, C133_fits, C133_joined, C133_down_refuted, C134_ends, C134_continuous, C134_mean, C134_raymer, C134_nonneg, C134_refused, C134_peak_refuted, C135_own, C136_fuselage, C136_form, C136_nacelle, C137_odd, C137_linear, C137_fading, C137_post_maximum, C137_maximum_refuted, C137_level, C138_parabola, C138_even, C138_beyond, C138_broadside_refuted, C138_least, C138_level, C139_sum, C139_order, C139_vertical, C139_mirror, C139_linear, C140_statement, C140_shared, C140_nonneg, C140_grows, C140_learning, C140_early_refuted, C142_multiply, C142_divide, C142_round_trip, C142_convert, C142_through, C142_name, C142_algebra, C142_nothing_refuted, C143_scale, C143_round_trip, C143_between, C143_compound_refuted, C143_prefix_refuted, C144_history, C144_reuse_refuted, C144_halving_refuted, C145_prefix, C145_overwrite_refuted, C149_solutions, C149_mass, C149_order, C149_same, C149_negative_refuted, C150_thrust, C150_throttle, C150_ambient, C150_best, C150_limit, C150_impulse, C150_engines_refuted, C150_design_refuted, C150_sized, C150_conditions_refuted, C151_state, C151_mass, C151_mass_refuted, C151_settings_refuted, C152_duct, C152_heats, C152_chokes, C152_fuel, C152_cold_refuted, C153_limits, C153_state, C153_shock, C153_shock_pressure, C153_limits_refuted, C153_jump_refuted, C154_inlet, C154_ram, C154_burner, C154_total_refuted, C154_nozzle, C154_thrust, C154_design, C154_airflow_refuted, C154_unsized, C155_index, C156_forward, C165_negative_refuted, C167_outline, C167_nose, C167_maximum_refuted, C167_errors, C168_estimate, C168_straight, C168_tapered_refuted, C168_scaling, C168_errors, C171_horizontal, C171_vertical, C171_fuel, C171_turbofan, C171_larger, C171_power, C181_enthalpy, C181_split, C181_split_refuted, C181_balance, C181_hydrogen, C181_boil, C181_nothing, C181_negative_refuted, C184_sheets, C184_no_flow_through, C184_kutta, C184_motion, C185_drag_one_sided, C185_drag, C186_turbulent, C186_shape_jump_refuted, C201_best, C204_sections, C204_stations, C204_heights, C204_rise, C204_lean, C204_leading_edge, C204_quarter_chord, C204_plain, C204_same_wing, C204_anhedral_refuted, C205_breaks, C205_only_there, C205_in_order, C205_known, C205_strange, C205_plain_root_refuted, C205_plain_foil_refuted, C205_plain, C206_body, C206_no_body, C207_scale, C207_distance, C207_total, C207_ground, C207_bands, C207_last_band_refuted, C208_direction, C208_settles, C208_places, C208_primary, C209_alpha, C209_alpha_near, C209_beta, C209_throttle, C209_controls, C212_area, C212_order, C212_pressure, C212_places, C212_plane_refuted, C218_outside, C218_wake, C218_chord_refuted, C218_velocity, C218_thickness, C219_together, C219_levels, C219_late_refuted, C219_negative_refuted, C221_plane, C221_areas, C221_places_refuted, C221_each

* `ClassicalDedekindReals.sig_forall_dec` + `ClassicalDedekindReals.sig_not_dec` + `ClassicalEpsilon.constructive_indefinite_description` + `Classical_Prop.classic` + `FunctionalExtensionality.functional_extensionality_dep` — 2 theorems: C41_over_refuted, C41_empty_refuted

## 6. What is modelled and what is not

Modelled (under /repo/trunk/SUAVE): Core (Data, DataOrdered, Container, Diffed_Data, Arrays, interp2d), Analyses/Process,
Analyses/Mission/Segments (Conditions, State, Segment containers), Methods/Missions/Segments, Methods/Geometry (frames,
planform, control sections, chord and span), Components/Physical_Component and Vehicle mass, Methods/Center_of_Gravity,
Attributes (Air, Earth, US 1976, constant temperature), Methods/Utilities, Batteries (Lithium_Ion, NMC 18650, sizing, heat),
Methods/Noise (tools, airframe, Shevell), Input_Output/SUAVE, Optimization (helper functions, Nexus, scipy/pyOpt set-ups,
TRMM, particle swarm), gas-turbine converters, Thrust, Turbofan, Turbojet_Super, network container, shocks and the further
functions cited in the `M_*.v` files.

Not modelled: plotting and printing; external solvers (scipy, pyOpt, AVL, SU2, OpenVSP, XFOIL); surrogate models; vortex
lattice and panel codes; the numerical values of regression data (charts, airfoil tables) except where they appear as
constants of a cited formula; floating-point rounding.

