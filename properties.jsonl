{"id": "C01", "title": "Data.update is a recursive, right-biased merge that never touches private keys", "statement": "After a.update(b): every public key of b is present in a; where both sides hold a Data the two are merged recursively; otherwise a holds b's value; every key of a that b does not mention keeps its value and its position; keys of b that start with '_' have no effect; if b is not a dictionary a TypeError is raised and a is unchanged.", "quantifier": "all finite trees of Data a and b, all key strings, all leaf values", "why_tests_cant": "tree shapes and key sets are unbounded; tests sample a few two-level trees", "anchors": ["trunk/SUAVE/Core/Data.py: Data.update", "trunk/SUAVE/Core/Data.py: Data.__init__"]}
{"id": "C02", "title": "Data.update is idempotent and absorbs repeated updates", "statement": "Applying the same update twice leaves exactly the state that applying it once does, updating a Data by itself changes nothing, and a Data constructed from a dictionary holds exactly its public entries in order.", "quantifier": "all finite trees of Data", "why_tests_cant": "unbounded tree shapes", "anchors": ["trunk/SUAVE/Core/Data.py: Data.update"]}
{"id": "C03", "title": "Data.append stores under the normalised tag and refuses duplicates without side effects", "statement": "append(value,key) stores value under the key whose punctuation and whitespace are replaced by '_' and whose upper-case letters are lower-cased; it raises KeyError and changes nothing when that normalised key is already present; otherwise the new entry is last and every earlier entry is unchanged.", "quantifier": "all containers, all key strings, all sequences of appends", "why_tests_cant": "key strings and histories are unbounded", "anchors": ["trunk/SUAVE/Core/Data.py: Data.append, t_table"]}
{"id": "C04", "title": "Container.append never loses or overwrites a component, whatever the tags", "statement": "For every history of Container.append calls and every outcome of the random suffix, each call either adds exactly one new entry holding the component (leaving all previous entries bound to the components they held) or raises KeyError and leaves the container unchanged; the keys stay pairwise distinct. The stronger claim that appending a component with an already-used tag always succeeds is false: there are histories and random draws for which KeyError is raised.", "quantifier": "all sequences of appended components, all tags, all random draws", "why_tests_cant": "depends on the whole append history and on a random draw", "anchors": ["trunk/SUAVE/Core/Container.py: Container.append"]}
{"id": "C05", "title": "deep_get after deep_set returns the value, and nothing else changes", "statement": "For a dotted path whose prefix exists, deep_set(path,v) followed by deep_get(path) returns v, and deep_get of any path that is not an extension of it (nor a prefix) returns what it returned before; if the prefix does not exist KeyError is raised and nothing changes.", "quantifier": "all Data trees, all paths, all values", "why_tests_cant": "unbounded tree and path shapes", "anchors": ["trunk/SUAVE/Core/Data.py: Data.deep_set, Data.deep_get"]}
{"id": "C06", "title": "pack_array / unpack_array in vector mode are mutually inverse", "statement": "unpack_array(pack_array()) leaves a Data unchanged; for every vector M of the packed length, pack_array() after unpack_array(M) returns exactly M; non-numeric entries and arrays of rank above two are never touched; the key structure never changes; surplus values are ignored and a warning tells exactly when the vector does not have the packed length. The stronger claim that a vector that is too short always makes unpack_array fail is false: a single remaining value is broadcast over a whole vector entry.", "quantifier": "all Data trees of scalars, vectors, matrices, higher-rank arrays and foreign objects, of any size; all vectors", "why_tests_cant": "layout correctness must hold for every tree and every vector length", "anchors": ["trunk/SUAVE/Core/Data.py: Data.pack_array, Data.unpack_array"]}
{"id": "C07", "title": "pack_array / unpack_array in array mode: exact domain of the round trip", "statement": "In array mode, if every packable entry of the tree has the same number of rows and none is a scalar, unpack(pack(d)) = d and pack(unpack(d,M)) = M for every M of the packed width. Outside that domain the two traversals disagree: pack_array includes scalars as one-row columns and skips row-mismatched entries while unpack_array skips scalars and consumes columns for mismatched entries, so a round trip can fail or corrupt data.", "quantifier": "all Data trees, all matrices", "why_tests_cant": "the domain of validity is an unbounded family of trees", "anchors": ["trunk/SUAVE/Core/Data.py: Data.pack_array, Data.unpack_array"]}
{"id": "C08", "title": "DataOrdered iterates keys in first-insertion order under every history", "statement": "For every sequence of attribute/item assignments, deletions and clears on a DataOrdered, keys() lists exactly the live (non-reserved) keys, each once, in the order in which they were last (re)inserted; values()/items() agree with the latest assignment; re-assigning an existing key keeps its position; integer indexing obj[i] returns the i-th value in that order.", "quantifier": "all operation histories", "why_tests_cant": "a linked-list invariant over unbounded histories", "anchors": ["trunk/SUAVE/Core/DataOrdered.py: DataOrdered.__setattr__, __delattr__, clear, keys, values, items, __getitem__"]}
{"id": "C09", "title": "DataOrdered.append does not detect duplicates", "statement": "Whereas Data.append raises KeyError on a duplicate key, DataOrdered.append never does: membership ('key in obj') looks at the dict storage, which holds only the list links, so a second append under the same tag silently replaces the first element in place. Appends under pairwise distinct non-reserved tags do keep every element in order.", "quantifier": "all append histories", "why_tests_cant": "needs the absence of an error over all histories", "anchors": ["trunk/SUAVE/Core/DataOrdered.py: DataOrdered.append", "trunk/SUAVE/Core/Container.py: ContainerOrdered.append"]}
{"id": "C10", "title": "Diffed_Data.store_diff/pull_base preserve overrides and propagate base edits", "statement": "For a Diffed_Data whose differences from its base are additions or changed values on public keys (nothing deleted, no Data replaced by a non-Data or conversely): after store_diff, pull_base against the unchanged base leaves the configuration unchanged; after any later edit of base leaves, pull_base yields for every path the stored override if there is one and the base's new value otherwise. A key deleted in the configuration is not kept deleted: it comes back holding None; and an array that differs from the base's only by broadcasting (its shape) is not recorded as a difference, so pull_base undoes it.", "quantifier": "all base and configuration trees, all edits of the base", "why_tests_cant": "unbounded tree shapes and edit histories", "anchors": ["trunk/SUAVE/Core/Diffed_Data.py: Diffed_Data.store_diff, pull_base, diff"]}
{"id": "C11", "title": "append_or_update stacks histories in order", "statement": "Merging the states of any number of segments with append_or_update, when arrays at the same place have rows of the same shape, succeeds and yields, for every array entry present in all of them, the vertical concatenation in segment order (so its row count is the sum of the row counts and row k of segment i is found at the offset of segment i plus k); private keys are skipped and an entry first met in a later segment is taken from there. (When a nested array has another row shape the exception is swallowed and the accumulated history of that nested Data is replaced by the last segment's, see the refuted theorems.)", "quantifier": "all lists of states, all tree shapes, all row counts", "why_tests_cant": "unbounded numbers of segments and rows", "anchors": ["trunk/SUAVE/Core/Data.py: Data.append_or_update", "trunk/SUAVE/Core/Arrays.py: append_array", "trunk/SUAVE/Analyses/Mission/Segments/Segment.py: Container.merged"]}
{"id": "C12", "title": "expand_rows gives every expandable array exactly the requested number of rows", "statement": "Conditions.expand_rows(n) turns every two-dimensional entry with at most one row (or every two-dimensional entry when override is set) into one with n rows that are cyclic copies of the original rows with the same columns (zeros if there were none), turns ones_row_m1/m2 placeholders into columns of n-1/n-2 rows, recurses into nested Conditions, and leaves every other entry untouched; entries already holding more than one row are untouched unless override is set; doing it again with the same n changes nothing provided no placeholder is left with fewer than two rows and override is off (otherwise it may, see the refuted theorem). State.expand_rows resizes every two-dimensional entry irrespective of override and skips 'initials' and 'numerics'.", "quantifier": "all nested Conditions trees, all row counts n, override on/off", "why_tests_cant": "unbounded shapes and row counts", "anchors": ["trunk/SUAVE/Analyses/Mission/Segments/Conditions/Conditions.py: Conditions.expand_rows", "trunk/SUAVE/Analyses/Mission/Segments/Conditions/State.py: State.expand_rows"]}
{"id": "C13", "title": "Process.evaluate runs every step exactly once, in insertion order", "statement": "Evaluating a Process (arbitrarily nested) calls each step exactly once in insertion order, threads the shared state through all of them, stores each result under the step's tag, and stops at the first step that raises, with the state changes made so far kept.", "quantifier": "all processes (any nesting), all step behaviours including raising ones", "why_tests_cant": "step lists and failure points are unbounded", "anchors": ["trunk/SUAVE/Analyses/Process.py: Process.evaluate"]}
{"id": "C14", "title": "Optimiser inputs: scaling, bounding and unit conversion", "statement": "scale_input_values stores x*scale; limit_input_values then leaves each value inside its [lower,upper] bounds whenever lower<=upper, leaves values already inside unchanged, and is idempotent; convert_values multiplies by the unit; set_values writes every converted value to every aliased location and to no other location when each input name matches exactly one alias.", "quantifier": "all input tables, all optimiser vectors", "why_tests_cant": "arbitrary table lengths and values", "anchors": ["trunk/SUAVE/Optimization/helper_functions.py: scale_input_values, limit_input_values, convert_values, set_values, get_values"]}
{"id": "C15", "title": "Nexus.evaluate caching is transparent", "statement": "For every sequence of evaluations, changes of fidelity level and force flags, with a deterministic procedure: after evaluate(x) the stored summary equals that of a fresh evaluation at the current inputs and fidelity, and the procedure is run exactly when the inputs or fidelity differ from the last evaluated ones or force_evaluate is set; evaluation_count equals the number of runs.", "quantifier": "all call histories", "why_tests_cant": "a cache-coherence invariant over unbounded histories", "anchors": ["trunk/SUAVE/Optimization/Nexus.py: Nexus.evaluate, _really_evaluate"]}
{"id": "C16", "title": "Inequality constraint sign convention and the effect of scaling", "statement": "The value returned by inequality_constraint for a constraint 'name > bound' (or '<') is non-negative exactly when the physical value satisfies the constraint, provided its scale factor is 1; for other scales this fails: the value is divided by the scale but the bound is not, so feasible designs are reported infeasible and conversely.", "quantifier": "all constraint tables, all values, bounds, units and scales", "why_tests_cant": "real-valued, for all scales", "anchors": ["trunk/SUAVE/Optimization/Nexus.py: Nexus.inequality_constraint", "trunk/SUAVE/Optimization/helper_functions.py: scale_const_values, scale_const_bnds"]}
{"id": "C17", "title": "Forward finite differences are exact on affine problems and cost n+1 evaluations", "statement": "For a problem whose objective and constraints are affine in the scaled inputs, finite_difference returns exactly the gradient and Jacobian for every step size other than zero and every base point; it evaluates the problem once at the base point and once per input, perturbing one coordinate at a time.", "quantifier": "all dimensions, base points, steps, affine problems", "why_tests_cant": "unbounded dimension", "anchors": ["trunk/SUAVE/Optimization/Nexus.py: Nexus.finite_difference"]}
{"id": "C18", "title": "TRMM corrected low-fidelity model is first-order consistent at the trust-region centre", "statement": "At the trust-region centre the corrected objective and every corrected constraint equal the high-fidelity values, and (when the model gradients are those used to build the correction) their gradients equal the high-fidelity gradients; for affine discrepancy the corrected model equals the high-fidelity one everywhere.", "quantifier": "all dimensions, numbers of constraints, models and centres", "why_tests_cant": "unbounded dimensions, real-valued models", "anchors": ["trunk/SUAVE/Optimization/Package_Setups/TRMM/Trust_Region_Optimization.py: calculate_correction, evaluate_corrected_model"]}
{"id": "C19", "title": "TRMM trust-region radius and iterates", "statement": "Through every run of the trust-region loop, with any sub-optimiser that respects the bounds it is given: the radius stays positive, never grows on a rejected step, is multiplied only by the contraction factor, 1 or the expansion factor; every centre lies inside the design-variable bounds; consecutive centres differ by at most the radius in each coordinate; a new centre is accepted only if objective or constraint violation strictly decreased; the loop stops after at most the configured number of iterations.", "quantifier": "all sub-optimiser behaviours, all models, all iteration histories", "why_tests_cant": "an adversarial oracle and unbounded history", "anchors": ["trunk/SUAVE/Optimization/Package_Setups/TRMM/Trust_Region_Optimization.py: optimize, update_tr_size, accuracy_ratio", "trunk/SUAVE/Optimization/Package_Setups/TRMM/Trust_Region.py"]}
{"id": "C20", "title": "Sequential segments are chained: time, position, mass, battery energy and range are continuous", "statement": "In a mission of any number of segments, each segment's first time, horizontal position, mass, aerodynamic range and battery energy equal the last values of the previous segment (when the segment is initialised from it), and within the segment all points are shifted by the same amount; hence total elapsed time is the sum of the segment durations.", "quantifier": "all mission lengths, all segment data", "why_tests_cant": "unbounded chains", "anchors": ["trunk/SUAVE/Methods/Missions/Segments/Common/Frames.py: initialize_time, initialize_inertial_position", "trunk/SUAVE/Methods/Missions/Segments/Common/Weights.py: initialize_weights", "trunk/SUAVE/Methods/Missions/Segments/Common/Energy.py: initialize_battery", "trunk/SUAVE/Methods/Missions/Segments/Common/Sub_Segments.py"]}
{"id": "C21", "title": "unpack_subsegments partitions the unknown vector", "statement": "Unpacking a mission's unknowns gives each segment, for every unknown that is a single column, its own consecutive slice, in order, with no overlap and no gap, so concatenating the segments' unknowns again yields the same column; unpacking what was merged from the segments returns each segment's own values. (For unknowns with several columns the slices are wrong, see the refuted theorem.)", "quantifier": "all numbers of segments and unknown sizes", "why_tests_cant": "unbounded", "anchors": ["trunk/SUAVE/Methods/Missions/Segments/Common/Sub_Segments.py: unpack_subsegments, update_sub_segments"]}
{"id": "C22", "title": "Changing from dimensionless to dimensional time preserves the operators", "statement": "With T the elapsed time, the dimensional differentiation operator applied to f(t) equals the dimensionless derivative divided by T, the dimensional integration operator equals the dimensionless one times T, differentiation of a constant is zero, of the time vector is one, and integrating the derivative of samples of a polynomial recovers the samples up to the initial value.", "quantifier": "all numbers of control points, all T not zero, all sampled functions", "why_tests_cant": "unbounded N, reals", "anchors": ["trunk/SUAVE/Methods/Missions/Segments/Common/Numerics.py: update_differentials_time", "trunk/SUAVE/Methods/Utilities/Chebyshev/chebyshev_data.py"]}
{"id": "C23", "title": "Mass bookkeeping during a segment", "statement": "update_weights sets total_mass at every point after the first to the initial mass minus the integral of the mass flow, leaves the first point unchanged, and sets the weight to mass times local gravity; with non-negative mass rate integrals the mass never exceeds the initial mass.", "quantifier": "all numbers of points, all mass-rate histories", "why_tests_cant": "unbounded", "anchors": ["trunk/SUAVE/Methods/Missions/Segments/Common/Weights.py: update_weights"]}
{"id": "C24", "title": "Frame transformations are rotations", "statement": "Every direction-cosine matrix built by angles_to_dcms from any angles and any of the supported sequences is orthogonal with determinant one, orientation_transpose gives its inverse, and orientation_product preserves vector norms, inner products; composing transforms corresponds to matrix product.", "quantifier": "all angles, all sequences", "why_tests_cant": "real-valued angles", "anchors": ["trunk/SUAVE/Methods/Geometry/Three_Dimensional/angles_to_dcms.py", "trunk/SUAVE/Methods/Geometry/Three_Dimensional/orientation_product.py", "trunk/SUAVE/Methods/Geometry/Three_Dimensional/orientation_transpose.py"]}
{"id": "C25", "title": "Drag opposes the flight path: exactly in symmetric flight", "statement": "After update_orientations, for wings-level flight without sideslip (zero roll, zero yaw, zero lateral velocity) the wind x-axis maps to the direction of the inertial velocity, so drag is antiparallel to velocity and lift is perpendicular to it; total force is lift+drag+thrust+weight. With roll or sideslip this fails: the rotation that is computed does not map the wind axis onto the velocity direction.", "quantifier": "all velocities, pitch angles; all attitudes for the refutation", "why_tests_cant": "real-valued attitudes", "anchors": ["trunk/SUAVE/Methods/Missions/Segments/Common/Frames.py: update_orientations, update_forces"]}
{"id": "C26", "title": "Aerodynamic coefficient limiting", "statement": "update_aerodynamics yields lift and drag force vectors with lift only along wind z and drag only along wind x, |CL| never above the configured maximum lift coefficient, zero lift and drag where dynamic pressure is not positive, and otherwise exactly the model's coefficients times q times reference area.", "quantifier": "all inputs, all numbers of points", "why_tests_cant": "real-valued, unbounded number of points", "anchors": ["trunk/SUAVE/Methods/Missions/Segments/Common/Aerodynamics.py: update_aerodynamics, update_freestream"]}
{"id": "C27", "title": "Segment kinematics honour the requested schedule", "statement": "For the climb, descent, cruise, loiter, hover segment types of any evaluated mission, whatever unknowns the solver tries: the altitude at the first and last control point equals the requested (or inherited) start and end altitude and is affine in the dimensionless time in between; the air speed (Mach number, equivalent air speed) equals the requested one; vertical speed equals the requested rate; elapsed time times ground speed equals the requested distance, and the distance flown is that distance (or the elapsed time equals the requested loiter time). A requested dynamic pressure is NOT held: the density of the altitudes stored before the evaluation is used, so a new segment flies at another dynamic pressure.", "quantifier": "all segment parameters, all control point distributions with end points 0 and 1, all solver histories", "why_tests_cant": "real-valued parameters", "anchors": ["trunk/SUAVE/Methods/Missions/Segments/Climb/*.py", "trunk/SUAVE/Methods/Missions/Segments/Cruise/*.py", "trunk/SUAVE/Methods/Missions/Segments/Descent/*.py", "trunk/SUAVE/Methods/Missions/Segments/Hover/*.py"]}
{"id": "C28", "title": "Pitch-rate and transition segments depend on the stored start time", "statement": "The pitch angle of the constant-pitch-rate cruise and of the constant-acceleration transition changes at the requested rate, and runs from the initial to the final angle when the times stored in the segment before its evaluation start at zero, as in a new segment; evaluated again with stored times that start later, every pitch angle is wrong by rate times that start time. A missing initial pitch is inherited from the previous segment. The linear-climb transition always runs from the initial to the final pitch and accelerates over the slant distance, but does not start at the given speed.", "quantifier": "all start times and parameters, all solver histories", "why_tests_cant": "needs all start times", "anchors": ["trunk/SUAVE/Methods/Missions/Segments/Cruise/Constant_Pitch_Rate_Constant_Altitude.py", "trunk/SUAVE/Methods/Missions/Segments/Transition/*.py"]}
{"id": "C29", "title": "wing_planform geometry identities", "statement": "For positive area, aspect ratio and taper: span^2 = AR*area, the trapezoid with the computed root and tip chords has the given area, taper is tip/root, the mean aerodynamic chord equals the area-weighted integral of chord squared, lies between tip and root chord, the leading-edge sweep is consistent with the quarter-chord sweep, the aerodynamic centre is the quarter-chord point of the station with the mean chord, the total length reaches the rearmost point, and a flapped area is that of its part of the wing. The span of a wing that is not symmetric is nevertheless treated as two half spans.", "quantifier": "all positive parameters", "why_tests_cant": "real-valued", "anchors": ["trunk/SUAVE/Methods/Geometry/Two_Dimensional/Planform/wing_planform.py"]}
{"id": "C30", "title": "wing_segmented_planform adds up", "statement": "For a wing with any number of segments with positive chords: the reported area is the integral of the chord, the mean aerodynamic chord the area-weighted integral of its square (and lies between the least and the greatest chord), the aerodynamic centre the area-weighted mean of the quarter-chord line, the sweeps describe the straight wing between root and tip, and cutting a segment in two changes none of them. For one segment the result agrees with wing_planform. The average thickness is right for symmetric wings and doubled for others; the wetted area given by the user is replaced by that of one side; the centre of a vertical wing is not turned.", "quantifier": "all segment lists", "why_tests_cant": "unbounded number of segments", "anchors": ["trunk/SUAVE/Methods/Geometry/Two_Dimensional/Planform/wing_segmented_planform.py"]}
{"id": "C31", "title": "Control surfaces are cut at segment breaks without loss \u2014 except in one case", "statement": "populate_control_sections assigns to every wing segment the part of each control surface that overlaps it; the parts together have the control surface's span, unless the surface starts exactly at a segment's inboard break and extends beyond its outboard break, in which case that part is silently dropped.", "quantifier": "all segment lists and control-surface extents", "why_tests_cant": "unbounded lists, real-valued extents", "anchors": ["trunk/SUAVE/Methods/Geometry/Two_Dimensional/Planform/populate_control_sections.py"]}
{"id": "C32", "title": "Chord-at-span and span-at-chord are inverse", "statement": "compute_span_location_from_chord_length and compute_chord_length_from_span_location invert each other on a tapered wing, the chord is affine and monotone from root to tip; for an untapered wing the inverse returns 0.", "quantifier": "all wings, all locations", "why_tests_cant": "real-valued", "anchors": ["trunk/SUAVE/Methods/Geometry/Three_Dimensional/compute_chord_length_from_span_location.py", "trunk/SUAVE/Methods/Geometry/Three_Dimensional/compute_span_location_from_chord_length.py"]}
{"id": "C33", "title": "Vehicle mass and centre of gravity are the weighted sums over the component tree", "statement": "sum_mass returns the sum of the masses of all components in the (nested) containers of the vehicle; the centre of gravity is the one point about which their moments vanish and lies in the convex hull of their locations for non-negative masses not all zero; both are independent of the order and grouping of components, and follow a common displacement. What a component holds itself (a network's battery) and components outside containers are not counted.", "quantifier": "all component trees", "why_tests_cant": "unbounded trees", "anchors": ["trunk/SUAVE/Components/Physical_Component.py: Container.sum_mass, total_moment", "trunk/SUAVE/Vehicle.py: Vehicle.sum_mass, center_of_gravity"]}
{"id": "C34", "title": "compute_component_centers_of_gravity places components consistently", "statement": "Systems and payload are put at fixed fractions of the longest fuselage, wings by class at the documented fraction of their chord, fuel and control systems with the main wing, and no mass changes; running it again changes nothing but the main gear. The propulsion centre of gravity is the weighted average for a single network whose parts have one origin each; with more networks the moment is too large by each network's location times the mass before it, and several origins are summed instead of averaged. The main gear balances the vehicle with the gear where it was before, so every further call moves it again; the vertical tail's chord is taken at 70% instead of 35% of the span.", "quantifier": "all vehicles and lists of networks", "why_tests_cant": "unbounded lists, repeated calls", "anchors": ["trunk/SUAVE/Methods/Center_of_Gravity/compute_component_centers_of_gravity.py"]}
{"id": "C35", "title": "Fuel centre-of-gravity range brackets every loading", "statement": "For any set of tanks and any fuel amount not above capacity, the front-to-back and back-to-front filling schedules of compute_fuel_center_of_gravity_longitudinal_range give the smallest and largest fuel centre of gravity among all ways of distributing that fuel over the tanks.", "quantifier": "all tank lists, all distributions", "why_tests_cant": "a universally quantified optimality claim", "anchors": ["trunk/SUAVE/Methods/Center_of_Gravity/compute_fuel_center_of_gravity_longitudinal_range.py"]}
{"id": "C36", "title": "US Standard Atmosphere 1976: physically consistent everywhere", "statement": "compute_values returns, for every altitude and every temperature deviation that keeps temperature positive: positive pressure, temperature, density and speed of sound, density = p/(R T), speed of sound = sqrt(gamma R T); altitudes outside the table are clamped to its ends; temperature equals the tabulated value at each break plus the deviation and is piecewise linear and continuous; pressure strictly decreases with altitude inside each layer, equals the table value at its base and, without a deviation, is in hydrostatic balance with the planet's own gravity. Across breaks it can rise slightly, because table and formula do not quite meet, and with a deviation the balance is lost because pressure ignores it.", "quantifier": "all altitudes and deviations", "why_tests_cant": "real-valued functions", "anchors": ["trunk/SUAVE/Analyses/Atmospheric/US_Standard_1976.py", "trunk/SUAVE/Attributes/Atmospheres/Earth/US_Standard_1976.py", "trunk/SUAVE/Attributes/Gases/Air.py"]}
{"id": "C37", "title": "Gravity and gas relations", "statement": "Earth gravity decreases strictly with altitude above the surface and equals 9.80665 at sea level; air density is monotone in pressure and temperature; dynamic viscosity is positive and increasing in temperature; Mach number, dynamic pressure and Reynolds number satisfy their defining identities.", "quantifier": "all altitudes, pressures, temperatures", "why_tests_cant": "real-valued", "anchors": ["trunk/SUAVE/Attributes/Planets/Earth.py", "trunk/SUAVE/Attributes/Gases/Air.py", "trunk/SUAVE/Methods/Missions/Segments/Common/Aerodynamics.py: update_freestream"]}
{"id": "C38", "title": "Chebyshev operators are exact", "statement": "For every number N>=2 of control points the nodes increase strictly from 0 to 1 and are symmetric, the differentiation matrix has zero row sums and differentiates every polynomial of degree below N exactly at the nodes, the integration matrix has a zero first row and integrating the derivative recovers the function up to its value at 0.", "quantifier": "all N>=2, all polynomials of degree below N", "why_tests_cant": "unbounded N and degree", "anchors": ["trunk/SUAVE/Methods/Utilities/Chebyshev/chebyshev_data.py"]}
{"id": "C39", "title": "Cubic spline blender and soft max", "statement": "The blend is 1 below x_start, 0 above x_end, strictly decreasing in between, continuous with zero slope at both ends and always in [0,1]; soft_max is symmetric, at least the maximum and at most the maximum plus ln 2.", "quantifier": "all reals", "why_tests_cant": "real-valued", "anchors": ["trunk/SUAVE/Methods/Utilities/Cubic_Spline_Blender.py", "trunk/SUAVE/Methods/Utilities/soft_max.py"]}
{"id": "C40", "title": "interp2d is bilinear interpolation with linear extrapolation", "statement": "interp2d reproduces the table at its nodes, is exact for bilinear functions everywhere, stays within the extreme values of the surrounding cell for points inside the table; outside the table it extrapolates linearly (it does not clamp) unless fill_value is given.", "quantifier": "all tables and query points", "why_tests_cant": "unbounded grids, reals", "anchors": ["trunk/SUAVE/Core/Utilities.py: interp2d"]}
{"id": "C41", "title": "Lithium-ion battery: energy and state of charge stay within physical limits", "statement": "After energy_calc the state of charge lies in [0,1] at every point and is the stored energy over the (aged) capacity wherever that is in range; a battery never filled stores what is put in less the losses, and one charged at every control point stores the smaller of that and its capacity (a charge followed by a discharge can leave more than the capacity in it, and nothing stops a discharge at zero); the open-circuit voltage is positive, grows with the state of charge and never exceeds the maximum; resistances and resistive losses are non-negative; terminal power is cell power less (charging: plus) the losses; the charge throughput starts at its prior value, never falls and is ampere hours for a steady current (for the nickel cells only up to 8 A per cell); all the losses heat the battery.", "quantifier": "all current/power histories, all battery parameters", "why_tests_cant": "real-valued, unbounded number of points", "anchors": ["trunk/SUAVE/Components/Energy/Storages/Batteries/Constant_Mass/Lithium_Ion.py: energy_calc", "trunk/SUAVE/Components/Energy/Storages/Batteries/Constant_Mass/Lithium_Ion_LiNiMnCoO2_18650.py"]}
{"id": "C42", "title": "Battery ageing is irreversible", "statement": "Across any sequence of state-of-health updates the capacity fade factor never increases and the resistance growth factor never decreases; they are exactly the worst of their starting values and all the values the fitted formulae have given, each taken on the day the use fell on; the day is the number of uses counted; a gentler use changes neither. Nothing keeps the capacity factor positive.", "quantifier": "all usage histories", "why_tests_cant": "unbounded histories", "anchors": ["trunk/SUAVE/Components/Energy/Storages/Batteries/Constant_Mass/Lithium_Ion_LiNiMnCoO2_18650.py: update_battery_state"]}
{"id": "C43", "title": "Battery sizing meets both requirements", "statement": "initialize_from_energy_and_power returns a battery whose maximum energy and maximum power are at least the requested ones, with equality in at least one (hard maximum); no lighter battery meets both and mass scales linearly with the requirement; the soft maximum adds at most ln 2 kg. On a Ragone curve the crossing of the two requirements is the lightest point. Sizing by mass gives whole numbers of cells that fit in the mass and voltage, and fails just when one cell has too much voltage; sizing by cells and then by the resulting mass finds the same cells, energy and charging values, but not the same power.", "quantifier": "all positive energies, powers and specific values", "why_tests_cant": "real-valued", "anchors": ["trunk/SUAVE/Methods/Power/Battery/Sizing/initialize_from_energy_and_power.py"]}
{"id": "C44", "title": "Decibel arithmetic", "statement": "The sum of sound pressure levels is at least the loudest, independent of the order of sources, associative under grouping, increases by 10 log10(n) for n equal sources, and is monotone in each level; it is the only level with the sources' added sound power. Third-octave bands hold the power of the harmonics inside them and together that of all harmonics when each is inside exactly one band (one on a shared edge is counted twice); air takes level in proportion to distance; A-weighting moves the total by at most its extreme band offsets.", "quantifier": "all numbers of sources and levels", "why_tests_cant": "unbounded, reals", "anchors": ["trunk/SUAVE/Methods/Noise/Fidelity_One/Noise_Tools/decibel_arithmetic.py"]}
{"id": "C45", "title": "Tone correction is applied to the first time step only", "statement": "noise_tone_correction returns a correction for every time step, but only the first is ever computed; all later ones are zero whatever the spectra. The correction lies in [0, 20/3]; a spectrum on a straight line gets none and a single band more than 5 dB above a level background gets the regulation's penalty, except in bands 9, 16 and 20 and for an excess of exactly 20 dB, which get none.", "quantifier": "all spectra histories", "why_tests_cant": "absence claim for all inputs", "anchors": ["trunk/SUAVE/Methods/Noise/Fidelity_One/Noise_Tools/noise_tone_correction.py"]}
{"id": "C46", "title": "archive/load round trip", "statement": "Writing a Data tree with archive and reading it back with load reproduces all numbers, strings, booleans, None and arrays at the same paths in the same order; nested Data come back as DataOrdered, lists as arrays; functions and all other objects come back as None; nothing is added; what has been read once is saved and read again without change; when saving fails no file is changed. It does NOT hold when a nested entry is called 'keys' (the whole Data is lost) or has the name of a DataOrdered method (it leaves the keys), or when a list holds an array (nothing is saved).", "quantifier": "all Data trees", "why_tests_cant": "unbounded trees", "anchors": ["trunk/SUAVE/Input_Output/SUAVE/archive.py", "trunk/SUAVE/Input_Output/SUAVE/load.py"]}
{"id": "C47", "title": "Solver set-ups hand over the problem the user wrote", "statement": "The start point and bounds passed to scipy and pyOpt stand for the values and bounds in the input table whenever the scales are positive; pyOpt's constraint limits accept a value exactly when the constraint is satisfied, for every positive scale; differential evolution is NOT given the problem: each of its constraint functions returns the value of the last constraint, so violated constraints are accepted.", "quantifier": "all input and constraint tables, all values", "why_tests_cant": "unbounded tables, reals, closure capture", "anchors": ["trunk/SUAVE/Optimization/Package_Setups/scipy_setup.py: SciPy_Solve", "trunk/SUAVE/Optimization/Package_Setups/pyopt_setup.py: Pyopt_Solve"]}
{"id": "C48", "title": "Particle swarm: bounds, result and best value", "statement": "For all random draws, objectives and constraints: the objective is only evaluated inside the bounds; the result is a feasible evaluated point with its own value, or carries the artificial value 1e100 and then no starting point was feasible; the result is no worse than any feasible starting point, and when all starting points are feasible it is the best of all feasible points evaluated. With infeasible starting points feasible designs found later can be thrown away.", "quantifier": "all random sequences, dimensions, swarm sizes, iteration counts", "why_tests_cant": "unbounded random histories", "anchors": ["trunk/SUAVE/Optimization/Package_Setups/particle_swarm_optimization.py: particle_swarm_optimization"]}
{"id": "C49", "title": "Evaluated segments are coherent", "statement": "After any mission has been evaluated, at every control point of every segment the stored pressure, temperature, density, speed of sound, viscosity and gravity are those of the stored altitude, air speed, Mach number, Reynolds number and dynamic pressure are those of the stored velocity, the weight is mass times gravity, the orientation is that of the stored rotations, and the total force is the sum of the stored lift, drag, thrust and weight turned into the inertial frame (plus the ground reaction on the ground). The height of the stored position is the altitude, except at a last point moved by the next segment's start altitude.", "quantifier": "all missions, all segment kinds, all solver histories", "why_tests_cant": "unbounded chains of segments and solver iterations", "anchors": ["trunk/SUAVE/Methods/Missions/Segments/Common/*.py", "trunk/SUAVE/Analyses/Mission/Segments/*"]}
{"id": "C50", "title": "Constant-temperature atmosphere", "statement": "Constant_Temperature.compute_values returns the requested temperature at every altitude; pressure and density obey the gas law and hydrostatic balance inside each layer of the table; repeated calls give the same values although a call overwrites the temperatures of the table. Pressure is NOT monotone: every layer restarts at the standard pressure of its base, so the pressure at sea level is more than 500 Pa higher than just below it.", "quantifier": "all altitudes, all positive temperatures, all tables", "why_tests_cant": "real-valued functions, repeated calls", "anchors": ["trunk/SUAVE/Analyses/Atmospheric/Constant_Temperature.py: compute_values"]}
{"id": "C51", "title": "Latin hypercube sampling", "statement": "For all random draws and shuffles, each of the returned columns has exactly one sample in each of the equal slices between the bounds of that dimension, all samples lie within the bounds, the criterion 'center' gives the middles of the slices, and any other criterion than 'random' or 'center' is refused.", "quantifier": "all dimensions, sample counts, bounds, random draws and shuffles", "why_tests_cant": "unbounded sizes, random histories", "anchors": ["trunk/SUAVE/Methods/Utilities/latin_hypercube_sampling.py: latin_hypercube_sampling"]}
{"id": "C52", "title": "Battery cooling", "statement": "The temperature returned by compute_net_generated_battery_heat is never below ambient and otherwise obeys the heat balance: cell mass times heat capacity times the rise is the integral of heat generated less heat removed. A single cell loses heat in proportion to its excess temperature; a pack gives heat to the coolant exactly when its mean temperature is above ambient, never more than the film would pass at the full difference, with the flow speed of the narrowest gap. The correlation for fast flow is never used, whatever the Reynolds number.", "quantifier": "all packs, coolants, temperatures and heat histories", "why_tests_cant": "real-valued, unbounded number of points; absence claim", "anchors": ["trunk/SUAVE/Methods/Power/Battery/compute_net_generated_battery_heat.py: compute_net_generated_battery_heat"]}
{"id": "C53", "title": "Perceived noise, effective perceived noise and exposure level", "statement": "pnl_noise is never negative, is zero only when no counted band is noisy, lies within 22 dB above the level of the noisiest band alone, ignores the 10 kHz band, and is NOT monotone (the 8 kHz band counts as silent between 44.3 and 85.9 dB). For a fly-over that starts and ends more than 10 dB below its peak, senel_noise is the combined level of the samples within 10 dB of the peak and the one before them, epnl_noise 13 dB less; both shift with the samples. A history that starts loud has its very last sample counted; one that ends loud loses its last sample.", "quantifier": "all spectra and time histories", "why_tests_cant": "unbounded histories, reals", "anchors": ["trunk/SUAVE/Methods/Noise/Fidelity_One/Noise_Tools/pnl_noise.py", "trunk/SUAVE/Methods/Noise/Fidelity_One/Noise_Tools/epnl_noise.py", "trunk/SUAVE/Methods/Noise/Fidelity_One/Noise_Tools/senel_noise.py"]}
{"id": "C54", "title": "Microphone geometry", "statement": "Distances and angles given to the noise models are those of the triangle between aircraft and microphone for approach, fly-over and sideline; ground grids hold every crossing once, evenly spread and in order; building microphones lie on the walls and roof of their building and number what was asked; relative positions and angles are consistent. Without a setting the sideline microphone moves with the aircraft's height; buildings cannot be gridded with different counts in x and y, and their base height is ignored.", "quantifier": "all positions, grids and buildings", "why_tests_cant": "reals, unbounded grids", "anchors": ["trunk/SUAVE/Methods/Noise/Fidelity_One/Noise_Tools/noise_geometric.py", "trunk/SUAVE/Methods/Noise/Fidelity_One/Noise_Tools/generate_microphone_points.py", "trunk/SUAVE/Methods/Noise/Fidelity_One/Noise_Tools/compute_noise_evaluation_locations.py"]}
{"id": "C55", "title": "Airframe noise", "statement": "Wing, tail, flap and gear noise fall by 20 log10 k when the distance grows k times; slat noise is at least 3 dB above the wing's in every band; the spectrum of a single or double slotted flap peaks at Strouhal number 2 (a triple slotted one jumps up again at 75); the total is the combined level of wing, horizontal tail, slats, flaps and gears. The vertical tail never counts, retracted flaps and gear count as 0 dB each, n main gears add 3(n-1) dB and the last moment of a fly-over is left at 0 dB.", "quantifier": "all aircraft, distances, angles and frequencies", "why_tests_cant": "real-valued", "anchors": ["trunk/SUAVE/Methods/Noise/Fidelity_One/Airframe/*.py"]}
{"id": "C56", "title": "Noise limits and the simple noise estimate", "statement": "Certification limits never fall with weight or number of engines and rise by 2.56, 4 and 2.33 dB when the weight doubles (to the rounding); in the simple estimate k times the engines add 10 log10 k dB at take-off and sideline, sideline is 2.5 dB below take-off and landing exceeds the airframe's own noise.", "quantifier": "all weights, engine counts and thrusts", "why_tests_cant": "real-valued", "anchors": ["trunk/SUAVE/Methods/Noise/Fidelity_One/Noise_Tools/noise_certification_limits.py", "trunk/SUAVE/Methods/Noise/Fidelity_Zero/shevell.py"]}
{"id": "C57", "title": "Gas-turbine components obey their thermodynamic laws", "statement": "The ram raises temperature and pressure without losses; a compressor multiplies the pressure by its ratio, heats at least as much as a loss-free one when the efficiency is at most one, does the work it reports, and two stages of one efficiency are one stage of the product ratio; the burner's fuel-air ratio balances the energy of one unit of air at the exit temperature asked for, and is positive exactly when the air has to be heated; a turbine gives up exactly the work asked of it and loses at least the loss-free pressure; an inlet's exit satisfies the stagnation relations, and one with its own shock loses stagnation pressure. Inlets and nozzles with a pressure ratio below one cool the stream as if it did work.", "quantifier": "all pressure ratios, efficiencies, temperatures, pressures and gases", "why_tests_cant": "real-valued", "anchors": ["trunk/SUAVE/Components/Energy/Converters/Ram.py: Ram.compute", "trunk/SUAVE/Components/Energy/Converters/Compressor.py: Compressor.compute", "trunk/SUAVE/Components/Energy/Converters/Combustor.py: Combustor.compute", "trunk/SUAVE/Components/Energy/Converters/Turbine.py: Turbine.compute", "trunk/SUAVE/Components/Energy/Converters/Compression_Nozzle.py: Compression_Nozzle.compute"]}
{"id": "C58", "title": "A turbofan obeys the first law of thermodynamics", "statement": "Whenever an evaluation gives a thrust, the energy of the two exhaust streams, the shaft power taken off and the shaft losses are together the energy of the captured air and the heat of the burnt fuel (for inlets and nozzles with unit pressure ratio). An engine whose combustor is not already exceeded and whose turbines find enough heat always gives a thrust and a non-negative fuel flow; when the low-pressure turbine is asked for more than there is, the thrust is not a number and the fuel flow is reported as zero.", "quantifier": "all engines, flight states and gases", "why_tests_cant": "real-valued chain of a dozen components", "anchors": ["trunk/SUAVE/Components/Energy/Networks/Turbofan.py: Turbofan.evaluate_thrust"]}
{"id": "C59", "title": "Nozzles choke, expand without losses and pass the captured mass flow", "statement": "The exit Mach number is at most one and is one exactly from the choking pressure ratio on; the exit pressure is ambient below choking, and never below ambient; the exit speed, density and temperature are those of a loss-free expansion; density times speed times area ratio is the mass flow per area of the free stream. The supersonic nozzle does the same at ambient exit pressure up to Mach 10.", "quantifier": "all pressures, temperatures, gases and flight Mach numbers", "why_tests_cant": "real-valued", "anchors": ["trunk/SUAVE/Components/Energy/Converters/Expansion_Nozzle.py: Expansion_Nozzle.compute", "trunk/SUAVE/Components/Energy/Converters/Supersonic_Nozzle.py: Supersonic_Nozzle.compute"]}
{"id": "C60", "title": "Thrust is the change of momentum, and throttle scales it", "statement": "The thrust is the throttle times the number of engines times the sum, over core and fan, of mass flow times speed gained plus exit area times pressure excess; it is proportional to the throttle; the fuel flow is fuel-air ratio times core mass flow times engines times throttle (times one minus the consumption adjustment), never negative. When the thrust is exactly zero or not a number, the fuel flow is reported as zero although fuel is burnt.", "quantifier": "all engines and flight states", "why_tests_cant": "real-valued", "anchors": ["trunk/SUAVE/Components/Energy/Processes/Thrust.py: Thrust.compute"]}
{"id": "C61", "title": "A sized turbofan gives its design thrust", "statement": "After turbofan_sizing at a flight state, evaluating the engine at that state and full throttle gives exactly the design thrust, and at throttle t the fraction t of it; sizing again changes nothing, and the core size before does not matter. With a shaft power off-take the sized engine gives less than its design thrust, because sizing leaves the off-take out.", "quantifier": "all engines without off-take, all design points", "why_tests_cant": "real-valued", "anchors": ["trunk/SUAVE/Methods/Propulsion/turbofan_sizing.py: turbofan_sizing", "trunk/SUAVE/Components/Energy/Processes/Thrust.py: Thrust.size"]}
{"id": "C62", "title": "One engine inoperative", "statement": "engine_out gives the thrust and fuel flow of all engines but one at full throttle and leaves every throttle of the caller's state as it was.", "quantifier": "all engines, numbers of engines and control points", "why_tests_cant": "unbounded number of control points", "anchors": ["trunk/SUAVE/Components/Energy/Networks/Turbofan.py: Turbofan.engine_out"]}
{"id": "C63", "title": "The mass-flow function", "statement": "fm_id is the fraction of the choked mass flow that a stream of given stagnation state passes at a Mach number: it is 1 at Mach 1, at most 1 everywhere, rises up to Mach 1 and falls beyond.", "quantifier": "all Mach numbers and heat-capacity ratios above one", "why_tests_cant": "real-valued", "anchors": ["trunk/SUAVE/Methods/Propulsion/fm_id.py: fm_id"]}
{"id": "C64", "title": "Shock waves", "statement": "Normal and oblique shocks conserve mass, momentum and energy, raise static pressure and temperature and lose stagnation pressure; the wave angle returned solves the relation between turning angle, wave angle and Mach number for every branch, and branch 0 is the weakest solution; a train of shocks keeps the stagnation temperature, and its ratios are the products of those of its parts.", "quantifier": "all supersonic Mach numbers, gases and turning angles with an attached shock, all numbers of shocks", "why_tests_cant": "real-valued, unbounded trains", "anchors": ["trunk/SUAVE/Methods/Aerodynamics/Common/Gas_Dynamics/Oblique_Shock.py: oblique_shock_relations, theta_beta_mach", "trunk/SUAVE/Methods/Propulsion/shock_train.py: shock_train", "trunk/SUAVE/Methods/Propulsion/nozzle_calculations.py: normal_shock"]}
{"id": "C65", "title": "Turbojet with afterburner", "statement": "Without the afterburner its settings do not matter; the main burner balances energy. The afterburner's fuel is computed as if only air reached it: whenever the main burner burns fuel and the afterburner heats the stream, the fuel counted is too little for the temperature assumed.", "quantifier": "all engines and flight states", "why_tests_cant": "real-valued", "anchors": ["trunk/SUAVE/Components/Energy/Networks/Turbojet_Super.py: Turbojet_Super.evaluate_thrust"]}
{"id": "C66", "title": "Several networks on one vehicle", "statement": "The thrust, mass rate and rotation of the vehicle are the sums over its networks, in any order; a network that does not report one of them makes the evaluation fail. Of networks with an additional fuel only the fuels from the last such network on are counted, and an ordinary network after one makes the evaluation fail.", "quantifier": "all lists of networks", "why_tests_cant": "unbounded lists, order", "anchors": ["trunk/SUAVE/Components/Energy/Networks/Network.py: Container.evaluate_thrust"]}
{"id": "C67", "title": "Drag is built up from the parts of the vehicle", "statement": "Evaluating the drag of a vehicle whose parts have different names gives a parasite coefficient that, times the reference area, is the sum over wings, fuselages and nacelles of their own coefficients times their own areas, with a fifth of the nacelles' for pylons; the breakdown holds each part referred to the vehicle's area; the total is trim factor times (parasite + induced + compressibility + excrescence) plus increment and spoiler, over one plus the lift-to-drag adjustment. The order of parts does not matter, and evaluating again changes nothing although wetted areas are filled in. It fails exactly when a transition point is off the chord or there is neither a network nor a nacelle (so a glider cannot be evaluated). Two parts of one name overwrite each other; a nacelle at several places counts once for friction and several times for excrescence.", "quantifier": "all vehicles, flow conditions, settings and earlier breakdowns", "why_tests_cant": "unbounded lists of parts, hidden state between evaluations", "anchors": ["trunk/SUAVE/Methods/Aerodynamics/Common/Fidelity_Zero/Drag/parasite_total.py: parasite_total", "trunk/SUAVE/Methods/Aerodynamics/Common/Fidelity_Zero/Drag/parasite_drag_wing.py: parasite_drag_wing", "trunk/SUAVE/Methods/Aerodynamics/Common/Fidelity_Zero/Drag/parasite_drag_fuselage.py", "trunk/SUAVE/Methods/Aerodynamics/Common/Fidelity_Zero/Drag/parasite_drag_nacelle.py", "trunk/SUAVE/Methods/Aerodynamics/Common/Fidelity_Zero/Drag/parasite_drag_pylon.py", "trunk/SUAVE/Methods/Aerodynamics/Common/Fidelity_Zero/Drag/untrimmed.py", "trunk/SUAVE/Methods/Aerodynamics/Common/Fidelity_Zero/Drag/trim.py", "trunk/SUAVE/Methods/Aerodynamics/Common/Fidelity_Zero/Drag/total_aircraft.py", "trunk/SUAVE/Methods/Aerodynamics/Common/Fidelity_Zero/Drag/miscellaneous_drag_aircraft_ESDU.py", "trunk/SUAVE/Analyses/Aerodynamics/Fidelity_Zero.py: evaluate"]}
{"id": "C68", "title": "Induced drag and span efficiency", "statement": "With a given Oswald factor the induced drag coefficient is CL squared over pi times the aspect ratio of a largest wing times the factor, and viscous and inviscid part add up to it; without one it is the area-weighted sum of the wings' inviscid parts plus the viscous part, and the efficiency reported is the one for which the formula gives this drag. The viscous part uses parasite coefficients that are already referred to the vehicle's area, so the area ratio of each wing enters squared.", "quantifier": "all vehicles, lift coefficients and settings", "why_tests_cant": "real-valued, unbounded lists of wings", "anchors": ["trunk/SUAVE/Methods/Aerodynamics/Common/Fidelity_Zero/Drag/induced_drag_aircraft.py: induced_drag_aircraft"]}
{"id": "C69", "title": "Skin friction of flat plates", "statement": "The turbulent coefficient is positive, falls with the Reynolds number and with the Mach number, and equals the incompressible one times two factors between 0 and 1 that are 1 exactly at Mach 0. The mixed plate is refused exactly for transition points off the plate; with transition at the leading edge it is the turbulent plate, at the trailing edge the laminar 1.328/sqrt(Re), which is less from Re = 1e5 on; it is positive whenever the laminar run has a Reynolds number of at least one.", "quantifier": "all Reynolds numbers above one, Mach numbers, temperatures and transition points", "why_tests_cant": "real-valued", "anchors": ["trunk/SUAVE/Methods/Aerodynamics/Common/Fidelity_Zero/Helper_Functions/compressible_turbulent_flat_plate.py", "trunk/SUAVE/Methods/Aerodynamics/Common/Fidelity_Zero/Helper_Functions/compressible_mixed_flat_plate.py"]}
{"id": "C70", "title": "Form factors", "statement": "The form factor of a wing is at least 1 below Mach 1, exactly 1 above, and grows with thickness; that of a fuselage is above 1 and grows with diameter over length; parasite drag is form factor times friction times wetted area. The fuselage factor jumps at Mach 0.95.", "quantifier": "all thicknesses, sweeps, fineness ratios and Mach numbers", "why_tests_cant": "real-valued", "anchors": ["trunk/SUAVE/Methods/Aerodynamics/Common/Fidelity_Zero/Drag/parasite_drag_wing.py: compute_parasite_drag", "trunk/SUAVE/Methods/Aerodynamics/Common/Fidelity_Zero/Drag/parasite_drag_fuselage.py", "trunk/SUAVE/Methods/Aerodynamics/Common/Fidelity_Zero/Drag/parasite_drag_nacelle.py"]}
{"id": "C71", "title": "Drag rise and excrescence drag", "statement": "The compressibility drag of a wing is 0 at Mach 0, grows with Mach number and is 0.0019 cos^3(sweep) at the crest-critical Mach number, which lies below the divergence Mach number and falls with thickness and - within the range of the fit only - with lift. Excrescence drag grows with the wetted area up to about 2075 square metres, then falls, and is negative beyond 4190.", "quantifier": "all Mach numbers, thicknesses, sweeps, lift coefficients and areas", "why_tests_cant": "real-valued", "anchors": ["trunk/SUAVE/Methods/Aerodynamics/Common/Fidelity_Zero/Drag/compressibility_drag_wing.py: compressibility_drag_wing", "trunk/SUAVE/Methods/Aerodynamics/Common/Fidelity_Zero/Drag/miscellaneous_drag_aircraft_ESDU.py"]}
{"id": "C72", "title": "Limit loads and design speeds of the flight envelope", "statement": "Drawing the V-n diagram of a flyable aircraft never uses limits below what the rules demand: the positive limit is at least 2.5 (4.4 utility, 6 acrobatic), the negative at most -1 and at most the one asked for; between the bounds the weight formula is used exactly. Unknown rule parts and categories give ValueError, nothing else is refused. At the stall speeds maximum (minimum) lift equals the weight, at the manoeuvre speeds limit times weight, and stall comes before manoeuvre; cruise is at least the speed asked for and, unless the two manoeuvre speeds are equal, above both; dive is at least 1.15 times cruise. Under part 25 the least cruise speed leaves at least 1.32 gust speeds above the stall speed raised by the gust. A positive limit above 2.5 is ignored for aircraft above 50000 lb; a negative limit given without sign becomes positive; with equal manoeuvre speeds cruise can stay below them.", "quantifier": "all weights, altitudes, lift coefficients, areas, categories and limits asked for", "why_tests_cant": "real-valued; every branch of the rules", "anchors": ["trunk/SUAVE/Methods/Performance/V_n_diagram.py: V_n_diagram", "trunk/SUAVE/Methods/Performance/V_n_diagram.py: stall_maneuver_speeds", "trunk/SUAVE/Methods/Performance/V_n_diagram.py: convert_keas"]}
{"id": "C73", "title": "The flight envelope encloses stall curve, limits and gusts", "statement": "Each half of the diagram starts at the stall speed with no load, follows the curve of largest lift in 21 equal steps up to the manoeuvre point, and ends at the dive speed with no load; speeds and loads have equal length. The positive limit reported covers the manoeuvre limit and the gusts at cruise and dive speed; the negative limit covers manoeuvre limit and dive gust, and the cruise gust whenever the gust at the manoeuvre speed is within the limit - otherwise it can fall far short of it (shown: -10 reported, gust below -15). While no gust reaches the stall curve at the manoeuvre speed, the speeds of the positive half never go back.", "quantifier": "all flyable aircraft, categories, altitudes up to 50000 ft, wing loadings up to 400 lb/ft2", "why_tests_cant": "real-valued lists edited in place by index; every branch combination", "anchors": ["trunk/SUAVE/Methods/Performance/V_n_diagram.py: stall_line", "trunk/SUAVE/Methods/Performance/V_n_diagram.py: gust_loads", "trunk/SUAVE/Methods/Performance/V_n_diagram.py: gust_dive_speed_intersection", "trunk/SUAVE/Methods/Performance/V_n_diagram.py: V_n_diagram"]}
{"id": "C74", "title": "Maximum lift coefficient of wings with slats and flaps", "statement": "The maximum lift coefficient is the factor times the area-weighted sum over the wings marked high-lift; the order of wings and all other wings do not matter. A slat adds nothing stowed and more the further it is out (to 36 degrees); a flap lowered at least half a degree helps, more the further it is lowered (to 81 degrees), triple slotted more than double more than single; faster flight gives more lift in the range of the fits. Times the reference area it does not depend on the reference area when there are no flaps. False: a stowed flap changes nothing (it lowers the lift), an unknown flap type adds nothing (it counts as double slotted), and independence of the reference area with flaps.", "quantifier": "all lists of wings, sweeps, deflections, chords, speeds, densities, viscosities and reference areas", "why_tests_cant": "real-valued fits and sums over wings of any number", "anchors": ["trunk/SUAVE/Methods/Aerodynamics/Fidelity_Zero/Lift/compute_max_lift_coeff.py: compute_max_lift_coeff", "trunk/SUAVE/Methods/Aerodynamics/Fidelity_Zero/Lift/compute_slat_lift.py: compute_slat_lift", "trunk/SUAVE/Methods/Aerodynamics/Fidelity_Zero/Lift/compute_flap_lift.py: compute_flap_lift"]}
{"id": "C75", "title": "Stall speed, take-off and landing field lengths", "statement": "At the stall speed the maximum lift carries the weight, and it grows with weight. A take-off length is refused exactly without engines; otherwise it grows with weight, and falls with thrust and with maximum lift; two engines need more than three, three more than four, one counts as two and more than four as four. The second-segment gradient times weight is thrust minus drag at the safety speed, positive exactly when thrust exceeds drag. The landing length has a closed form without gravity; the caller's landing constants are never used (a finding).", "quantifier": "all weights, thrust curves not growing with speed, fields, engine counts and user constants", "why_tests_cant": "real-valued; order relations between pairs of runs", "anchors": ["trunk/SUAVE/Methods/Performance/estimate_stall_speed.py: estimate_stall_speed", "trunk/SUAVE/Methods/Performance/estimate_take_off_field_length.py: estimate_take_off_field_length", "trunk/SUAVE/Methods/Performance/estimate_landing_field_length.py: estimate_landing_field_length"]}
{"id": "C76", "title": "Take-off weight for a given field length", "statement": "For a field length that grows with weight, the weight returned lies between empty and 1.1 times maximum take-off weight, is within a 49th of that span of the exact answer, and does not fall when the field gets longer; if the length is convex in the weight - as the take-off lengths are for constant thrust - it never needs a longer field than asked, provided the empty aircraft fits. False: that it always fits the field, that it is within the maximum take-off weight, and that the vehicle is left as it was (its take-off mass ends at 1.1 times the maximum).", "quantifier": "all increasing field-length functions, weights and targets", "why_tests_cant": "the search samples fifty weights of a real interval", "anchors": ["trunk/SUAVE/Methods/Performance/find_take_off_weight_given_tofl.py: find_take_off_weight_given_tofl"]}
{"id": "C77", "title": "Payload-range corners and the search for the range", "statement": "A diagram is refused exactly when empty, zero-fuel or take-off weight is zero. Otherwise it has four corners; at each flown corner empty weight, payload and fuel stay within the take-off weight and that within the maximum; payload at the first two corners respects both limits, fuel the tanks; the second corner is fully loaded, and payload does not rise to the third, exactly when the tanks take the fuel left beside the full payload (otherwise the third corner breaks the zero-fuel limit, shown). The range at a corner is that of the last mission flown; corrections that shrink the fuel error by a factor end below one kilogram or below that factor to the tenth; for fuel burn linear in distance the first correction is exact. All calls return the same object, so a later call changes an earlier result (shown). The electric version returns full payload at maximum weight and none at empty weight.", "quantifier": "all masses, mission evaluators, reserves and initial distances", "why_tests_cant": "iteration with an arbitrary mission solver; aliasing across calls", "anchors": ["trunk/SUAVE/Methods/Performance/payload_range.py: payload_range", "trunk/SUAVE/Methods/Performance/electric_payload_range.py: electric_payload_range"]}
{"id": "C78", "title": "Sweep at another fraction of the chord", "statement": "Converting the sweep of a panel from one chord fraction to another gives the angle of the straight line through the points at the new fraction; there and back returns the angle, two steps equal one, the same fraction changes nothing; constant chord keeps the angle, a narrowing panel has less sweep further back. For whole wings the answers from the quarter chord and from the leading edge agree when the stored sweeps do. False: that the old fraction chooses the line the known sweep belongs to (whole wings use the quarter-chord sweep for every fraction but zero).", "quantifier": "all angles below a right angle, chords, spans, fractions", "why_tests_cant": "identities of real functions of five and more arguments", "anchors": ["trunk/SUAVE/Methods/Flight_Dynamics/Static_Stability/Approximations/Supporting_Functions/convert_sweep.py: convert_sweep, convert_sweep_segments"]}
{"id": "C79", "title": "Mean aerodynamic chord, aerodynamic centre and extension to the centre line", "statement": "A mean chord given is returned; otherwise it is the integral of the squared chord over the area, between tip and root chord; missing chords are those that give the area. The aerodynamic centre lies a quarter chord behind the leading end of the mean chord at the station where the local chord equals it, for tapered wings; for symmetric wings of constant chord it is put at the tip's sweep offset (shown). Extending a surface to the centre line continues its edges: chord, area, span and aspect ratio are those of the longer panel. False: that only the x coordinate of the origin moves.", "quantifier": "all chords, spans, taper ratios, sweeps and extensions", "why_tests_cant": "integrals over real intervals", "anchors": ["trunk/SUAVE/Methods/Flight_Dynamics/Static_Stability/Approximations/Supporting_Functions/trapezoid_mac.py: trapezoid_mac", "trunk/SUAVE/Methods/Flight_Dynamics/Static_Stability/Approximations/Supporting_Functions/trapezoid_ac_x.py: trapezoid_ac_x", "trunk/SUAVE/Methods/Flight_Dynamics/Static_Stability/Approximations/Supporting_Functions/extend_to_ref_area.py: extend_to_ref_area"]}
{"id": "C80", "title": "Lift-curve slope of a finite wing", "statement": "Below Mach 1 the slope is positive, at most half pi times the aspect ratio, below the section's own, grows with aspect ratio and Mach number and falls with sweep; above Mach 1 it is positive, below four over the Prandtl-Glauert factor and falls with Mach number. False: that nothing special happens at exactly Mach 1 (the slope there is below every subsonic one), and that the same flight condition always gives the same slope (the first evaluation of a vertical tail uses its own aspect ratio, later ones the extended one).", "quantifier": "all aspect ratios, sweeps and Mach numbers; sequences of evaluations", "why_tests_cant": "monotonicity over pairs of real inputs; dependence on history", "anchors": ["trunk/SUAVE/Methods/Flight_Dynamics/Static_Stability/Approximations/datcom.py: datcom", "trunk/SUAVE/Methods/Flight_Dynamics/Static_Stability/Approximations/Tube_Wing/taw_cnbeta.py: taw_cnbeta", "trunk/SUAVE/Analyses/Stability/Fidelity_Zero.py: Fidelity_Zero.__call__"]}
{"id": "C81", "title": "Pitching moment and neutral point", "statement": "Moving the centre of gravity aft changes the moment slope by the distance over the chord times the lift slope of all surfaces that are not vertical, so there is exactly one neutral position. Surfaces behind the centre of gravity stabilise, those ahead destabilise, vertical ones change nothing, order does not matter; a fuselage destabilises, more the further aft the wing. The reported neutral point is neutral exactly when the aircraft is so already or its lift slope equals that of the main wing alone (false otherwise, shown with a tail). False: that twisting a surface acts like flying it at that angle (the moment has the opposite sign).", "quantifier": "all lists of surfaces, centres of gravity, areas, chords and fuselages", "why_tests_cant": "sums over lists of any length; real-valued", "anchors": ["trunk/SUAVE/Methods/Flight_Dynamics/Static_Stability/Approximations/Tube_Wing/taw_cmalpha.py: taw_cmalpha", "trunk/SUAVE/Analyses/Stability/Fidelity_Zero.py: Fidelity_Zero.__call__"]}
{"id": "C82", "title": "Yawing moment of fin and fuselages", "statement": "The result is refused exactly without a fuselage; otherwise it is Datcom's share of the fin - positive behind the centre of gravity, negative ahead - minus the shares of all fuselages. The tail factor is between 0.76 and 1, never falls with the span-to-height ratio and has no jump. A fuselage's share is inversely proportional to wing area and span, linear in the position of the centre of gravity, and grows by four fifths from one to fifty million of Reynolds number. False: that the order of the fuselages does not matter (the fin is judged by the last one).", "quantifier": "all lists of fuselages, fins, wings, centres of gravity and Reynolds numbers", "why_tests_cant": "sums over lists of any length; real-valued", "anchors": ["trunk/SUAVE/Methods/Flight_Dynamics/Static_Stability/Approximations/Tube_Wing/taw_cnbeta.py: taw_cnbeta"]}
{"id": "C83", "title": "Rate derivatives and one-line mode approximations", "statement": "Roll damping equals the strip-theory integral over a straight-edged wing (the dihedral effect is half of its integral: shown); the downwash slope is twice the lift slope over pi times the aspect ratio; damping in yaw and pitch is the moment of the tail moving sideways or down (plus a quarter of the drag, a tenth of the tail) and opposes the motion, and the effect of the rate of incidence is that of the downwash arriving late. Phugoid, dutch roll and short period report exactly the frequency and damping of the second-order equations of motion they stand for, and no number when the stiffness is negative; the roll number is the inverse exponent of a rolling motion; the spiral number is negative exactly when dihedral effect times yaw damping outweighs yaw stiffness times roll due to yawing. False: that the analysis reports the aircraft's roll mode (it uses the inertia in yaw).", "quantifier": "all geometry, derivatives, inertias, speeds and densities", "why_tests_cant": "identities between real functions; integrals", "anchors": ["trunk/SUAVE/Methods/Flight_Dynamics/Dynamic_Stability/Approximations/phugoid.py: phugoid", "trunk/SUAVE/Methods/Flight_Dynamics/Dynamic_Stability/Approximations/dutch_roll.py: dutch_roll", "trunk/SUAVE/Methods/Flight_Dynamics/Dynamic_Stability/Approximations/roll.py: roll", "trunk/SUAVE/Methods/Flight_Dynamics/Dynamic_Stability/Approximations/short_period.py: short_period", "trunk/SUAVE/Methods/Flight_Dynamics/Dynamic_Stability/Approximations/spiral.py: spiral", "trunk/SUAVE/Methods/Flight_Dynamics/Dynamic_Stability/Full_Linearized_Equations/Supporting_Functions/cl_p.py: cl_p", "trunk/SUAVE/Methods/Flight_Dynamics/Dynamic_Stability/Full_Linearized_Equations/Supporting_Functions/cl_beta.py: cl_beta", "trunk/SUAVE/Analyses/Stability/Fidelity_Zero.py: Fidelity_Zero.__call__"]}
{"id": "C84", "title": "Lateral modes from the full linearised equations", "statement": "The polynomial built is the determinant of the lateral equations of motion at every complex exponent, with a root at zero. The call is refused exactly when inertia or mass vanish or the spiral is neutral. Otherwise the dutch-roll frequency is the modulus of a true root and the time constants are inverses of true roots. False: that the damping ratio is that of the mode (it is twice it over the frequency squared), and that the labels are right for a stable aircraft (the spiral's number is then the dutch roll's and the roll's is the spiral's); they are right when the spiral diverges.", "quantifier": "all derivatives, inertias and masses; every root finder that is exact", "why_tests_cant": "polynomial identities over the complex numbers, all orders of roots", "anchors": ["trunk/SUAVE/Methods/Flight_Dynamics/Dynamic_Stability/Full_Linearized_Equations/lateral_directional.py: lateral_directional"]}
{"id": "C85", "title": "Longitudinal modes from the full linearised equations", "statement": "The polynomial built is the determinant of the longitudinal equations of motion; the call is refused exactly when its highest coefficient vanishes. The two quadratics reported multiply to the quartic up to an explicit remainder of first degree, and exactly when it vanishes they are the modes; frequency and damping are those of the quadratics, and missing when a constant term is negative. False: that the modes are exact (counterexample).", "quantifier": "all derivatives, inertias and masses; all quartics", "why_tests_cant": "polynomial identities over the complex numbers", "anchors": ["trunk/SUAVE/Methods/Flight_Dynamics/Dynamic_Stability/Full_Linearized_Equations/longitudinal.py: longitudinal"]}
{"id": "C86", "title": "Flight modes from eigenvalues", "statement": "The state matrices are the equations of motion with coupled inertia and rate-of-incidence terms, built from the coefficients. Frequency, damping and time to double or halve describe the eigenvalue exactly. With one oscillation among the four lateral eigenvalues it is the dutch roll wherever it stands, and of the other two the one further from zero is the roll. Giving both mass and maximum take-off mass is an error. False: that the moment does not follow the speed when it should not (pitch damping is used for that derivative), that the rate-of-incidence moment has the right length scale (the chord enters once), that inertia is turned into stability axes (element-by-element products), that four real eigenvalues are handled (roll and spiral come from the first two), and that the longitudinal labels are a property of the matrix (they depend on the sign of eigenvectors).", "quantifier": "all derivatives, inertias, attitudes and lists of eigenvalues", "why_tests_cant": "all positions of the oscillation among the eigenvalues; real-valued", "anchors": ["trunk/SUAVE/Methods/Flight_Dynamics/Dynamic_Stability/compute_dynamic_flight_modes.py: compute_dynamic_flight_modes"]}
{"id": "C87", "title": "Electric motor and propeller in balance", "statement": "At a voltage that overcomes the no-load current, the motor speed found is the only forward speed at which the geared dc motor's torque equals what the propeller takes; more voltage turns it faster, a larger power coefficient slower. Electric power is shaft power plus resistive and no-load losses, the efficiency reported is their ratio and lies between 0 and 1; torque from voltage and speed is the inverse of voltage and current from torque and speed. False: the same at low voltage (the motor turns backwards with positive torque and draws current at zero volts, or stands with an unbalanced torque), and for an unloaded propeller (speed 0).", "quantifier": "all motors, gears, densities, power coefficients, voltages and speeds", "why_tests_cant": "real-valued identities and uniqueness over a continuum", "anchors": ["trunk/SUAVE/Components/Energy/Converters/Motor.py: Motor.omega, Motor.torque, Motor.current, Motor.voltage_current"]}
{"id": "C88", "title": "Simple motor, propeller, gearbox and speed controller conserve energy", "statement": "The simple motor finds a working point of the dc motor with the wanted efficiency whenever any point has it, and of those the one with the least current; thrust times speed is the propeller's share of shaft power and its power coefficient fits its torque; between zero and full throttle the controller takes what it delivers over its efficiency; in the simple solar train the power into the battery is panel power less avionics, payload and thrust power over all efficiencies. False: that an unreachable efficiency is refused, that a motor without no-load current works, that the controller balances outside 0..1, that a gearbox's speed times torque is its power for a ratio other than one, that the solar train balances above full throttle (the throttle counts twice).", "quantifier": "all motors, efficiencies, voltages, throttles and panels", "why_tests_cant": "real-valued identities; an optimum over all working points", "anchors": ["trunk/SUAVE/Components/Energy/Converters/Motor_Lo_Fid.py: Motor_Lo_Fid", "trunk/SUAVE/Components/Energy/Converters/Propeller_Lo_Fid.py: Propeller_Lo_Fid.spin", "trunk/SUAVE/Components/Energy/Converters/Gearbox.py: Gearbox.compute", "trunk/SUAVE/Components/Energy/Distributors/Electronic_Speed_Controller.py: Electronic_Speed_Controller", "trunk/SUAVE/Components/Energy/Networks/Solar_Low_Fidelity.py: Solar_Low_Fidelity.evaluate_thrust"]}
{"id": "C89", "title": "Piston engine power lapse", "statement": "A piston engine gives rated power below its flat-rating altitude and the density-law share above, never more than rated and less in thinner air; power is throttle times available power, torque times speed is power, fuel flow is power times specific consumption; throttle from power is the inverse. False: above the altitude where density is 0.117 of sea level the available power is negative and the throttle for a demand is negative; on a non-standard day power jumps at the flat-rating altitude.", "quantifier": "all engines, altitudes, density laws, throttles and demands", "why_tests_cant": "real-valued; all density profiles", "anchors": ["trunk/SUAVE/Components/Energy/Converters/Internal_Combustion_Engine.py: Internal_Combustion_Engine.power, calculate_throttle"]}
{"id": "C90", "title": "Propeller networks add up", "statement": "A network of several motor-propeller units is the sum of networks of one in thrust, battery current and battery power; declaring them identical equals listing the first n times; too few units is an IndexError. Battery power is volts times current exactly when the avionics are fed at the battery's voltage; lift+cruise adds its two groups; charging stores volts times current; piston networks sum thrust and fuel. False: that the stored thrust of each propeller is its own (it is cumulative), that electronics efficiency counts all propellers (only the last), that the constant-speed piston network returns the total thrust (only the last propeller's, with all the fuel).", "quantifier": "all numbers and lists of units, all propeller models, throttles and voltages", "why_tests_cant": "lists of any length; arbitrary propeller functions", "anchors": ["trunk/SUAVE/Components/Energy/Networks/Battery_Propeller.py: Battery_Propeller.evaluate_thrust", "trunk/SUAVE/Components/Energy/Networks/Lift_Cruise.py: Lift_Cruise.evaluate_thrust", "trunk/SUAVE/Components/Energy/Networks/Solar.py: Solar.evaluate_thrust", "trunk/SUAVE/Components/Energy/Networks/Internal_Combustion_Propeller.py: Internal_Combustion_Propeller.evaluate_thrust", "trunk/SUAVE/Components/Energy/Networks/Internal_Combustion_Propeller_Constant_Speed.py: Internal_Combustion_Propeller_Constant_Speed.evaluate_thrust"]}
{"id": "C91", "title": "Sunlight on a panel", "statement": "The zenith angle is the angle between the vertical and the true direction of the sun; the sun moves fifteen degrees an hour, fifteen degrees of longitude are one hour, a day later is the next date, and the sun is highest at hour angle zero. The flux lies between 0 and the solar constant and is direct radiation times the cosine of the incidence, or zero with the sun behind the panel; a level panel gets the height of the sun, nothing at night. Air mass is the path length to the top of the air and falls with altitude. False: that the azimuth is the sun's (its cosine is used as the angle), and that the path is that of the earth (metres over kilometres).", "quantifier": "all dates, times, places, altitudes and attitudes", "why_tests_cant": "trigonometric identities over a continuum", "anchors": ["trunk/SUAVE/Components/Energy/Processes/Solar_Radiation.py: Solar_Radiation.solar_radiation"]}
{"id": "C92", "title": "Sizing of motors and fuel cells", "statement": "Speed constant, resistance, no-load current and mass describe the same motor from either end, and a heavier motor turns slower per volt; a motor that meets the sizing equations delivers the design torque at the design efficiency when run, for a direct drive; fuel used carries the power demanded; cell voltage falls with current; a stack has the fewest whole cells that reach the power. False: that a geared motor sized this way meets its design point (the ratio is applied the other way round).", "quantifier": "all design points, masses, cells and demands", "why_tests_cant": "real-valued; minimality over all integers", "anchors": ["trunk/SUAVE/Methods/Propulsion/electric_motor_sizing.py: size_from_kv, size_from_mass, size_optimal_motor", "trunk/SUAVE/Methods/Power/Fuel_Cell/Discharge/zero_fidelity.py: zero_fidelity", "trunk/SUAVE/Methods/Power/Fuel_Cell/Discharge/larminie.py: larminie", "trunk/SUAVE/Methods/Power/Fuel_Cell/Sizing/initialize_larminie_from_power.py: initialize_larminie_from_power"]}
{"id": "C93", "title": "Weight statement closes", "statement": "For every method, set of correlations, reduction factors and aircraft for which a transport weight estimate goes through, structures and systems are the sums of their items, empty weight is structures plus propulsion plus systems, operating empty adds the operating items, zero fuel weight adds the payload, and zero fuel weight plus fuel is the take-off weight; with SUAVE's own correlations every leaf is counted once. It goes through exactly when FLOPS has its mission data, every wing_mounted list has one flag per engine, the method is known (or there is no main wing) and FLOPS Complex has a network to estimate; otherwise ValueError or AttributeError. False: that the analysis stores the operating empty weight in the vehicle (it stores the empty weight, at least 690 lb less).", "quantifier": "all aircraft, correlations, methods and reduction factors", "why_tests_cant": "all component lists and all correlations at once", "anchors": ["trunk/SUAVE/Methods/Weights/Correlations/Common/weight_transport.py: empty_weight", "trunk/SUAVE/Analyses/Weights/Weights_Transport.py: Weights_Transport.evaluate"]}
{"id": "C94", "title": "Masses stored in the vehicle agree with the statement", "statement": "After a transport estimate the masses of the main wings, horizontal tails, vertical tails, fuselages, networks and systems add up to the lines of the statement; a network gets no mass (not a jet), 0 (no engines), its given total weight, or the correlation. All stored masses add up to take-off weight less landing gear, crew, attendants and the nacelles under structures. False for FLOPS and Raymer: that nacelles are carried once (they are in the propulsion weight and again under structures), and that the propulsion breakdown covers all networks (it is the last one's).", "quantifier": "all aircraft, correlations and methods", "why_tests_cant": "all component lists", "anchors": ["trunk/SUAVE/Methods/Weights/Correlations/Common/weight_transport.py: empty_weight", "trunk/SUAVE/Methods/Weights/Correlations/FLOPS/prop_system.py: total_prop_flops", "trunk/SUAVE/Methods/Weights/Correlations/Raymer/prop_system.py: total_prop_Raymer"]}
{"id": "C95", "title": "Weight reduction factors", "statement": "The factors for main wing, empennage and fuselage scale exactly their own lines by one minus the factor; a non-zero structural factor replaces all three; gear, propulsion, systems, payload and operating items are untouched; estimating again with the settings as left behind gives the same. A lighter wing never gives a lighter tube fuselage. False: that the systems factor has an effect, and that individual factors come back when the structural one is reset (the first estimate erased them).", "quantifier": "all aircraft, correlations, methods and factors", "why_tests_cant": "all component lists; all real factors", "anchors": ["trunk/SUAVE/Methods/Weights/Correlations/Common/weight_transport.py: empty_weight", "trunk/SUAVE/Methods/Weights/Correlations/Transport/tube.py: tube"]}
{"id": "C96", "title": "Payload, crew, operating items and systems", "statement": "There is a whole number of attendants, at least one and at least one for 50 passengers; two pilots below 150 passengers and three from there; payload is passengers, baggage and cargo; with more passengers no item of payload, operating items or systems gets lighter; the auxiliary power unit never under 70 kg; controls are sized by the tails or a hundredth of the main wing; FLOPS baggage steps with range at 900 and 2900 nautical miles; the FLOPS seat classes add up to the passengers. False: FLOPS payload is the sum of its items unless there is no cargo (cargo is added in pounds).", "quantifier": "all passenger numbers, aircraft and ranges", "why_tests_cant": "all numbers of passengers; real-valued monotonicity", "anchors": ["trunk/SUAVE/Methods/Weights/Correlations/Common/payload.py: payload", "trunk/SUAVE/Methods/Weights/Correlations/Common/systems.py: systems", "trunk/SUAVE/Methods/Weights/Correlations/Transport/operating_items.py: operating_items", "trunk/SUAVE/Methods/Weights/Correlations/FLOPS/payload.py: payload_FLOPS", "trunk/SUAVE/Methods/Weights/Correlations/FLOPS/operating_items.py: operating_items_FLOPS"]}
{"id": "C97", "title": "Structure and engine correlations", "statement": "Wing and tail weights are above their area term and grow with take-off weight, span and taper and fall with thickness and tail arm; the fuselage index lies between the pressure index or half the bending index and the larger of the two, has no jump and grows with both; engines, piston engines and motors get heavier with thrust or power, and one big one is lighter than several small ones. A T tail marked with the word yes weighs a quarter more. False: that one marked True does.", "quantifier": "all plausible surfaces, loads and engines", "why_tests_cant": "real-valued monotonicity over a continuum", "anchors": ["trunk/SUAVE/Methods/Weights/Correlations/Common/wing_main.py: wing_main", "trunk/SUAVE/Methods/Weights/Correlations/Transport/tail_vertical.py: tail_vertical", "trunk/SUAVE/Methods/Weights/Correlations/Transport/tail_horizontal.py: tail_horizontal", "trunk/SUAVE/Methods/Weights/Correlations/Transport/tube.py: tube", "trunk/SUAVE/Methods/Weights/Correlations/Propulsion/engine_jet.py: engine_jet", "trunk/SUAVE/Methods/Weights/Correlations/Propulsion/air_cooled_motor.py: air_cooled_motor", "trunk/SUAVE/Methods/Weights/Correlations/Propulsion/hts_motor.py: hts_motor", "trunk/SUAVE/Methods/Weights/Correlations/Propulsion/nasa_motor.py: nasa_motor"]}
{"id": "C98", "title": "Bending weight of a constant-chord wing segment", "statement": "For a segment of constant chord and thickness the closed form is the integral over the segment of the moment about the wing root of the elliptic lift outboard of each station, divided by the depth; cutting a segment in two changes nothing. False: that it is the integral of the bending moment (the moment about the station itself): that one is smaller on every segment and exactly half over a whole rectangular wing.", "quantifier": "all segments, chords, thicknesses and sweeps", "why_tests_cant": "an integral over a continuum", "anchors": ["trunk/SUAVE/Methods/Weights/Correlations/Common/wing_main.py: wing_main"]}
{"id": "C99", "title": "FLOPS wing weight", "statement": "The FLOPS wing weight is the only weight whose bending part carries the load left after the wing's own relief; it lies between its unloaded parts and the load. The angle in the bending factor is the sweep of the trapezoid's three-quarter chord line. False: that short-range aircraft get their own constants, and that the detailed method has the manual's denominator (a stray division makes sweep drop out without tailoring and bracing).", "quantifier": "all wings, loads and factors", "why_tests_cant": "real-valued identities and uniqueness", "anchors": ["trunk/SUAVE/Methods/Weights/Correlations/FLOPS/wing.py: wing_weight_FLOPS, wing_weight_constants_FLOPS"]}
{"id": "C100", "title": "General aviation weight statement", "statement": "The estimate closes: structures, propulsion and systems make the empty weight, payload the zero fuel weight, fuel the take-off weight; it goes through exactly with a horizontal tail, and with fuel if there is landing gear, and otherwise raises UnboundLocalError. False: that the fuel system is in the empty weight, that tail taper counts (the span is used), that flight controls follow the take-off weight (doubling it adds under 0.02 percent), that furnishings weigh something on small aircraft, that the wing takes dynamic pressure in pounds per square foot.", "quantifier": "all light aircraft", "why_tests_cant": "all inputs; real-valued identities", "anchors": ["trunk/SUAVE/Methods/Weights/Correlations/General_Aviation/empty.py: empty", "trunk/SUAVE/Methods/Weights/Correlations/General_Aviation/systems.py: systems", "trunk/SUAVE/Methods/Weights/Correlations/General_Aviation/tail_horizontal.py: tail_horizontal", "trunk/SUAVE/Methods/Weights/Correlations/General_Aviation/wing_main.py: wing_main"]}
{"id": "C101", "title": "Weight estimates do not depend on earlier ones", "statement": "In any session of estimates, a vehicle with its own landing gear components is estimated the same way whatever came before. False for others: a transport without them is estimated exactly when no light aircraft with landing gear was estimated before in the same session; after that it raises AttributeError, because the light aircraft's gear weights are left in the class of all data objects.", "quantifier": "all histories of estimates", "why_tests_cant": "quantifies over histories", "anchors": ["trunk/SUAVE/Methods/Weights/Correlations/General_Aviation/landing_gear.py: landing_gear", "trunk/SUAVE/Methods/Weights/Correlations/Common/weight_transport.py: empty_weight", "trunk/SUAVE/Core/Data.py: Data"]}
{"id": "C102", "title": "Blended wing body, UAV and human-powered weights", "statement": "The blended wing body statement closes, and cabin and aft body grow with size, take-off weight and engines; the UAV weight is positive and grows with area and aspect ratio; the human-powered weight is the sum of wing and tails and grows with load and dynamic pressure. False: that a blended wing body can be analysed (the analysis passes one argument too many), that its fuselage mass includes the aft body, that a human-powered aircraft may have a fuselage.", "quantifier": "all aircraft of these kinds", "why_tests_cant": "all inputs; real-valued monotonicity", "anchors": ["trunk/SUAVE/Methods/Weights/Correlations/BWB/empty.py: empty", "trunk/SUAVE/Methods/Weights/Correlations/UAV/empty.py: empty", "trunk/SUAVE/Methods/Weights/Correlations/Human_Powered/empty.py: empty", "trunk/SUAVE/Analyses/Weights/Weights.py: Weights.evaluate"]}
{"id": "C103", "title": "Loads along a wing or blade in the build-ups", "statement": "On any grid of stations the shear at a station is the sum of the loads of the intervals outboard of it, the bending moment the sum of these loads times the distance to the outer end of their interval; both are non-negative, fall towards the tip and vanish there. The root of the wing carries exactly the design lift on every grid, the shares of all wings add up to take-off weight times load factor and safety factor, and the thrust shear is the thrust times the number of motors at or outboard of the station.", "quantifier": "all grids, loads, motor places and wings", "why_tests_cant": "every grid and every load distribution", "anchors": ["trunk/SUAVE/Methods/Weights/Buildups/Common/wing.py: wing", "trunk/SUAVE/Methods/Weights/Buildups/Common/prop.py: prop"]}
{"id": "C104", "title": "Cross-section and mass of a built-up wing", "statement": "The section outline has non-negative thickness, is closed at the leading edge, and the formula used for its area gives the trapezoidal area wherever the shear centre lies, growing with the square of the chord, its length with the chord. The wing never gets lighter with more lift or thrust; without load it is a mass per unit of span at minimum gauge plus ribs, on every grid; caps are stressed exactly and the web at most to their strength. False: that the torsion skin is sized for its moment (its thickness has the first grid spacing as a factor, and is at minimum gauge for every moment when a motor sits at the root).", "quantifier": "all sections, materials, grids and loads", "why_tests_cant": "real-valued inequalities over all grids", "anchors": ["trunk/SUAVE/Methods/Weights/Buildups/Common/wing.py: wing"]}
{"id": "C105", "title": "Mass of a propeller blade", "statement": "Iterating a blade's mass ends for every tolerance, start, radius and grid when safety factor times squared tip speed times density is below twice the strength of the caps. With n intervals the root carries 1-(3n-1)/(2n^2) of the design thrust. False: that it carries the design thrust; that the caps' stiffness is about their own pieces (every piece is placed halfway to the cap's first point, so it is too large when that point is the highest); that the loop ends for every tip speed.", "quantifier": "all blades, materials, grids and starting masses", "why_tests_cant": "termination of a loop over all real data", "anchors": ["trunk/SUAVE/Methods/Weights/Buildups/Common/prop.py: prop"]}
{"id": "C106", "title": "Built-up fuselage and wiring", "statement": "The fuselage never gets lighter with take-off weight; wetted area grows with the square of the size, the landing pads with the power 3/2 of take-off weight. Every further motor adds its cable from the middle of the fuselage to its place. A wing without motors is wired as if it had one at the root, a wing never given the list costs nothing, a plain list raises TypeError. False: that the torsion part of the keel depends on the fuselage's length.", "quantifier": "all fuselages, loads and motor lists", "why_tests_cant": "real-valued monotonicity; all lists", "anchors": ["trunk/SUAVE/Methods/Weights/Buildups/Common/fuselage.py: fuselage", "trunk/SUAVE/Methods/Weights/Buildups/Common/wiring.py: wiring"]}
{"id": "C107", "title": "Weight statement of electric vehicles", "statement": "Whenever the build-up returns, each line is the sum of what the networks bring (blades, tail rotor, motors, servos, hubs, recovery systems, batteries, payload), empty weight is the contingency factor times everything but the batteries plus the batteries, and the total adds payload and passengers. Unknown networks, a battery network with both kinds of rotors, no fuselage, wings without networks and a first network with nothing to size raise. With as many units listed as declared, pitch control on the first unit or none, one network and no contingency the stored masses are the total less landing gear and tail rotor. False: that a fixed-pitch propeller is stored without a servo (it has one if a propeller before it is variable), that hubs and blades are counted alike.", "quantifier": "all vehicles, networks, rotors, wings and factors", "why_tests_cant": "all lists of networks and rotors", "anchors": ["trunk/SUAVE/Methods/Weights/Buildups/eVTOL/empty.py: empty"]}
{"id": "C108", "title": "Converging the take-off weight", "statement": "True is returned exactly when one of the first hundred weights of the sequence of build-ups is within 1 kg of its own build-up, and the take-off weight is then the first such; False leaves the hundredth build-up. If build-up grows by at most q<1 per kilogram it converges and ends within 1/(1-q) kg of the vehicle that carries its own weight. With so many propellers that hubs and gear alone reach the take-off weight it never does. False: that a vehicle whose weight is reached by the hundredth build-up is reported as converged.", "quantifier": "all build-up functions and starting weights", "why_tests_cant": "all real functions; fixed-point iteration", "anchors": ["trunk/SUAVE/Methods/Weights/Buildups/eVTOL/converge_evtol_weight.py: converge_evtol_weight"]}
{"id": "C109", "title": "Integration along a rotor blade and around its disc", "statement": "The widths given to the radial stations integrate every loading by the trapezoidal rule between the first and last station (exactly, if it is linear) and are positive for rising radii; with fewer than two stations spinning raises IndexError. The azimuth stations divide the circle evenly and whatever varies as sine and cosine averages to zero with two or more of them, not with one. False: that a rotor with a swept blade can be spun; every sweep that is not zero raises ValueError.", "quantifier": "all stations, loadings, numbers of azimuth stations and sweeps", "why_tests_cant": "all lists of stations and all loading functions", "anchors": ["trunk/SUAVE/Components/Energy/Converters/Rotor.py: Rotor.spin"]}
{"id": "C110", "title": "Energy balance of a spinning rotor", "statement": "For every wake angle the induced velocity at a blade element is perpendicular to the flow there, and shaft power equals thrust times speed plus the power given to induced flow and friction. When the wake satisfies its circulation equation with flow forward at every station, the losses are not negative: propulsive efficiency never exceeds one, and a windmill never takes more than drag times speed. False: the perpendicularity with radial flow.", "quantifier": "all rotors, sections, airs, speeds and wake angles", "why_tests_cant": "real-valued inequality over all blades and wakes", "anchors": ["trunk/SUAVE/Components/Energy/Converters/Rotor.py: Rotor.spin", "trunk/SUAVE/Methods/Propulsion/Rotor_Wake/Fidelity_Zero/fidelity_zero_wake_convergence.py: iteration"]}
{"id": "C111", "title": "Rotor reports", "statement": "While running forwards the coefficients returned are those of the thrust, torque and power returned, clipped at zero; power is torque times rotation rate and the power coefficient 2 pi times the torque coefficient. Closed throttle or no rotation gives no thrust, torque, power or in-plane force. In axial flow there is no in-plane force; the analysis around the disc without crosswind equals the axial one. False: that a rotor at rest reports numbers for torque coefficient and figure of merit; that a closed throttle clears the coefficients; that thrust and its coefficient agree turning backwards; that a crosswind alone gives an in-plane force when section coefficients do not vary.", "quantifier": "all rotors, loads, throttles and rotation rates", "why_tests_cant": "all real inputs including zero and negative rotation", "anchors": ["trunk/SUAVE/Components/Energy/Converters/Rotor.py: Rotor.spin"]}
{"id": "C112", "title": "Rotor axes", "statement": "For all mounting angles and tilts the change between vehicle and rotor axes is a rotation with the returned inverse: thrust keeps its magnitude, and axial speed times thrust is the vehicle's velocity times the thrust vector. Without mounting angles a tilt by a turns the thrust from forward to up by a. False: that the mounting angles are Euler angles; they are components of one rotation vector.", "quantifier": "all angles, velocities and thrusts", "why_tests_cant": "all real angles", "anchors": ["trunk/SUAVE/Components/Energy/Converters/Rotor.py: Rotor.body_to_prop_vel, Rotor.prop_vel_to_body, Rotor.vec_to_vel, Rotor.vec_to_prop_body"]}
{"id": "C113", "title": "Tip loss factor", "statement": "The factor lies in [0,1), is zero exactly at the tip, larger inboard, with more blades and with less inflow. Reversed inflow counts as almost none.", "quantifier": "all radii, blade numbers and flows", "why_tests_cant": "transcendental function of reals", "anchors": ["trunk/SUAVE/Methods/Aerodynamics/Common/Fidelity_Zero/Lift/BET_calculations.py: compute_inflow_and_tip_loss"]}
{"id": "C114", "title": "Blade section coefficients", "statement": "Lift is never zero; the built-in drag is always positive. Below stall lift is 2 pi times incidence with the Karman-Tsien correction, above it the corrected stall lift; the correction is the identity at rest, keeps the order and moves every lift towards 2. The drag correction lowers drag with Mach number, between zero and the uncorrected drag. An unknown airfoil number gives no drag. False: continuity at the speed of sound, and stall at negative incidence.", "quantifier": "all incidences, Mach and Reynolds numbers and section tables", "why_tests_cant": "real-valued functions", "anchors": ["trunk/SUAVE/Methods/Aerodynamics/Common/Fidelity_Zero/Lift/BET_calculations.py: compute_airfoil_aerodynamics", "trunk/SUAVE/Components/Energy/Converters/Rotor.py: Rotor.spin"]}
{"id": "C115", "title": "Wake behind a propeller", "statement": "Induced velocity grows from zero far ahead through its value at the disc to twice that behind. The wake's stations keep their order, every annulus passes the same volume, the wake is narrower behind and wider ahead of the disc, with at least half the area. Behind a station the wing sees that station's induced velocity, axial alike on both sides and vertical opposite. False: that overlapping slipstreams add (the last propeller wins), and that control points after the first get any.", "quantifier": "all propellers, stations, speeds and places", "why_tests_cant": "all lists of stations; real-valued", "anchors": ["trunk/SUAVE/Methods/Propulsion/Rotor_Wake/Fidelity_Zero/compute_wake_contraction_matrix.py: compute_wake_contraction_matrix", "trunk/SUAVE/Methods/Propulsion/Rotor_Wake/Fidelity_Zero/compute_fidelity_zero_induced_velocity.py: compute_fidelity_zero_induced_velocity"]}
{"id": "C116", "title": "Propeller design", "statement": "Exactly one of thrust and power must be asked for (else an exception), not zero (UnboundLocalError). However many rounds it takes, a finished design for power takes the power asked for; one for thrust gives the lesser of what is asked for and the most its wake can give. Thrust times speed never exceeds power, torque times rotation rate is power, coefficients agree. Chords are positive; stations run from the hub in equal steps. False: that the recorded design thrust is the thrust given, and that the blade reaches the tip (it ends one step short).", "quantifier": "all requests, section functions, numbers of stations and rounds", "why_tests_cant": "iteration over all reals and section data", "anchors": ["trunk/SUAVE/Methods/Propulsion/propeller_design.py: propeller_design"]}
{"id": "C117", "title": "Vortex lattice: the influence of a panel is Biot and Savart's", "statement": "At Mach zero, for every panel with width and every point that keeps a thousandth of that width from the lines of its three vortex pieces and from its plane (or lies exactly in the plane), the influence the lattice uses equals the limit of the Biot-Savart integrals over a horseshoe whose legs run downstream without end. Which end of the panel comes first does not matter, nor where in space the pair of panel and point is.", "quantifier": "all panels and points outside the stated allowances", "why_tests_cant": "an identity between a closed formula and limits of integrals", "anchors": ["trunk/SUAVE/Methods/Aerodynamics/Common/Fidelity_Zero/Lift/compute_wing_induced_velocity.py: compute_wing_induced_velocity, subsonic"]}
{"id": "C118", "title": "Vortex lattice: compressibility and symmetry", "statement": "For every Mach number below one the influence follows Prandtl and Glauert exactly: it is the incompressible one in coordinates stretched by 1/beta along the flow, with the component along the flow divided by beta. At every Mach number, also supersonic, the mirrored panel acts on the mirrored point with the mirrored velocity.", "quantifier": "all Mach numbers, panels and points", "why_tests_cant": "all real geometries and Mach numbers", "anchors": ["trunk/SUAVE/Methods/Aerodynamics/Common/Fidelity_Zero/Lift/compute_wing_induced_velocity.py: compute_wing_induced_velocity, subsonic, supersonic, supersonic_in_plane"]}
{"id": "C119", "title": "Vortex lattice: supersonic zones and transonic panels", "statement": "At Mach one and above a panel has no influence outside the Mach cones opening downstream from its ends. A panel's own wave contribution is a downwash, or nothing if its leading edge is subsonic. A panel is treated as transonic exactly if it has a panel ahead and one behind in its own strip with the sonic sweep between theirs; its equation then makes its circulation the mean of its neighbours', other equations stay as they were. False: that a panel acts throughout its cones; off its plane the outer part of the cones is cut off.", "quantifier": "all Mach numbers, panels, points, strips of any lengths and matrices of any size", "why_tests_cant": "all shapes of lattices and all Mach numbers", "anchors": ["trunk/SUAVE/Methods/Aerodynamics/Common/Fidelity_Zero/Lift/compute_wing_induced_velocity.py: supersonic, supersonic_in_plane"]}
{"id": "C120", "title": "Vortex lattice: no flow through the surface", "statement": "The velocity meeting a control point is the wind less the cross product of rotation and arm, plus slipstreams. A panel's normal is a unit vector at right angles to its edges. Circulations that solve the equation of a panel let no flow through it exactly if the surface does not slope both along and across the flow (or nothing meets it head on); otherwise a stated remainder is left. The component of an influence along a panel's normal is right for panels that rise or stay level outboard. False: that it is right with anhedral; that VORLAX's slope sine and cosine belong to one angle; that slipstreams of all networks count.", "quantifier": "all flight states, arms, panels, influences and circulations", "why_tests_cant": "all solutions of the equations, all slopes", "anchors": ["trunk/SUAVE/Methods/Aerodynamics/Common/Fidelity_Zero/Lift/compute_RHS_matrix.py: compute_RHS_matrix, build_RHS", "trunk/SUAVE/Methods/Aerodynamics/Common/Fidelity_Zero/Lift/VLM.py: VLM", "trunk/SUAVE/Methods/Aerodynamics/Common/Fidelity_Zero/Lift/generate_VD_helpers.py: compute_unit_normal"]}
{"id": "C121", "title": "Vortex lattice: loads", "statement": "Sums over panels never leave their strip, whatever the lengths of strips. Without sideslip the force on a strip is Kutta and Joukowski's, however many panels share it, and its moment is that of the loads about the first load point. Turning into wind axes keeps sizes and angles; moving the moment centre adds arm times force; a symmetric wing without sideslip has no side force, roll or yaw; area-weighted wing coefficients add up to the aircraft's; suction is never negative and vanishes when switched off.", "quantifier": "all strips, circulations, flight states, reference values and groups of wings", "why_tests_cant": "sums over lattices of any size", "anchors": ["trunk/SUAVE/Methods/Aerodynamics/Common/Fidelity_Zero/Lift/VLM.py: VLM, compute_rotation_effects, cumsum_axis1"]}
{"id": "C122", "title": "Vortex lattice: reference values", "statement": "Chord, span and moment centre come from the main wing; without one from a wing, not vertical, of largest mean chord; a centre of gravity that is given replaces the moment centre. With only vertical wings: UnboundLocalError without a centre of gravity, a reference chord of zero with one. False: that a centre of gravity at x = 0 is respected.", "quantifier": "all lists of wings and centres of gravity", "why_tests_cant": "all lists of wings in any order", "anchors": ["trunk/SUAVE/Methods/Aerodynamics/Common/Fidelity_Zero/Lift/VLM.py: VLM"]}
{"id": "C123", "title": "Vortex lattice: numbers of vortices", "statement": "The lattice is built exactly if both numbers for the whole vehicle are given and none of the separate ones, or all four separate ones and none for the whole vehicle; 0 counts as not given. The numbers used are then those given. Every other combination raises an AssertionError.", "quantifier": "all combinations of the six settings", "why_tests_cant": "all values of six optional settings", "anchors": ["trunk/SUAVE/Methods/Aerodynamics/Common/Fidelity_Zero/Lift/generate_vortex_distribution.py: generate_vortex_distribution"]}
{"id": "C124", "title": "Vortex lattice: stations along the span", "statement": "Stations run from root to tip in ascending order, evenly or with cosine spacing. Moving stations onto the sections of the wing always succeeds when there are at least as many stations as sections: the number of stations stays, every section has its station, no two coincide, and root and tip stay. With fewer stations it raises ValueError. A control surface takes over all stations of its wing, one strip between each pair, and at least two rows and no fewer than its share.", "quantifier": "all spans, numbers of stations and ascending lists of sections", "why_tests_cant": "an argument about nearest free stations for any number of sections", "anchors": ["trunk/SUAVE/Methods/Aerodynamics/Common/Fidelity_Zero/Lift/generate_vortex_distribution.py: generate_wing_vortex_distribution"]}
{"id": "C125", "title": "Vortex lattice: strips lie in one part of the wing", "statement": "For every wing with at least as many stations as sections, walking outboard never runs past the last section; there is one strip between each pair of stations, and each lies between the section it is built from and the next.", "quantifier": "all spans, numbers of stations and ascending lists of sections", "why_tests_cant": "all section lists; an index carried along a loop", "anchors": ["trunk/SUAVE/Methods/Aerodynamics/Common/Fidelity_Zero/Lift/generate_vortex_distribution.py: generate_wing_vortex_distribution"]}
{"id": "C126", "title": "Vortex lattice: panels", "statement": "Panels behind one another and beside one another share their corners, whatever camber and twist, also across a section when both parts are uncambered and the section is where the inner part ends. Without camber the vortex is at a quarter and the control points at three quarters of the panel, the control point is in the middle if twist is constant, panels divide the chord evenly and are turned nose up by the local twist; chord and twist are linear between sections. False: with camber and twist, that the ends of the control line belong to the panel's three-quarter line.", "quantifier": "all surfaces, sections, stations and numbers of panels", "why_tests_cant": "all real geometries", "anchors": ["trunk/SUAVE/Methods/Aerodynamics/Common/Fidelity_Zero/Lift/generate_vortex_distribution.py: generate_wing_vortex_distribution"]}
{"id": "C127", "title": "Vortex lattice: the other side", "statement": "The panels of the second side of a symmetric wing are the mirror images of the first side's, point by point: left and right, or up and down for a vertical wing. A vertical wing stands up from its origin, or hangs down if its dihedral is above a right angle. False: that one with a dihedral of exactly a right angle has any height.", "quantifier": "all wings, stations and numbers of panels", "why_tests_cant": "all real geometries", "anchors": ["trunk/SUAVE/Methods/Aerodynamics/Common/Fidelity_Zero/Lift/generate_vortex_distribution.py: generate_wing_vortex_distribution"]}
{"id": "C128", "title": "Vortex lattice: panels cover the wing", "statement": "For every untwisted, uncambered wing the areas of the panels of a side add up to the areas of its trapezoids between the cuts for control surfaces, whatever spacing and numbers of panels; without dihedral and control surfaces this is the area of the planform.", "quantifier": "all lists of sections, spacings and numbers of panels", "why_tests_cant": "a sum over any number of panels", "anchors": ["trunk/SUAVE/Methods/Aerodynamics/Common/Fidelity_Zero/Lift/generate_vortex_distribution.py: generate_wing_vortex_distribution"]}
{"id": "C129", "title": "Vortex lattice: lists of panels", "statement": "After any sequence of wings and sides all lists have an element per panel, strip or side. Those of one side say where its strips begin, carry its number, and mark the first and last panel of each strip, whatever sides come before or after. If the numbers of sides differ, a side's number picks out exactly its panels.", "quantifier": "all sequences of sides with any numbers of strips and panels", "why_tests_cant": "all histories of appended wings", "anchors": ["trunk/SUAVE/Methods/Aerodynamics/Common/Fidelity_Zero/Lift/generate_vortex_distribution.py: generate_wing_vortex_distribution"]}
{"id": "C130", "title": "Vortex lattice: deflecting a surface", "statement": "Deflecting a control surface (or an all-moving surface hinged at a constant fraction of the chord) turns each side as a rigid body about its hinge line by the change of the deflection, the mirrored side as mirror image times its sign; the hinge stays. Panels depend on the last deflection only: any sequence of deflections ends as the last one alone, and going back restores the panels. False for all-moving surfaces hinged along the span: the second side deflects the opposite way, and a vertical one does not return.", "quantifier": "all panels, sequences of deflections, hinge fractions, orientations and signs", "why_tests_cant": "all histories of deflections", "anchors": ["trunk/SUAVE/Methods/Aerodynamics/Common/Fidelity_Zero/Lift/deflect_control_surface.py: deflect_control_surface, deflect_control_surface_strip, flip_1, flip_2"]}
{"id": "C131", "title": "Control surfaces are divided among segments", "statement": "A control surface that does not start exactly where a segment starts and reach past the next one is divided into what it has in common with each segment: at most one part on a segment, every place of it on a part, and lengths and spans that add up to its own. False otherwise: a surface starting at a segment and reaching past the next loses its first part.", "quantifier": "all ascending lists of segments and all surfaces", "why_tests_cant": "any number of segments and all real positions", "anchors": ["trunk/SUAVE/Methods/Geometry/Two_Dimensional/Planform/populate_control_sections.py: populate_control_sections"]}
{"id": "C132", "title": "Control surfaces are cut out of the wing", "statement": "For every wing whose slats do not overlap each other and whose other surfaces do not overlap each other, cutting succeeds. The wing gets a section at each segment and each end of a surface, in ascending order and no others; at every section, and on both edges, the surface noted inboard and outboard is the one there, with its cut, or none with the plain edge; chord, twist, offsets, sweep and dihedral are those of a segment or surface end at that place. False for overlaps: a partly covered surface is dropped without a word, one inside another raises ValueError.", "quantifier": "all segments and all sets of non-overlapping surfaces on both edges", "why_tests_cant": "merging and filling loops over any number of surfaces", "anchors": ["trunk/SUAVE/Methods/Aerodynamics/Common/Fidelity_Zero/Lift/make_VLM_wings.py: make_VLM_wings, make_span_break_from_segment, make_span_breaks_from_cs, add_span_break, reprocess_span_breaks"]}
{"id": "C133", "title": "Cut-out surfaces fit the wing", "statement": "The wing made of a control surface lies in the surface of the wing it was cut from, twisted, cambered, tapered, swept and with dihedral alike: its panels begin where the cut wing's panels end (or end where they begin, for a slat) and its free edge is the uncut wing's. Its stations are those of the wing between its ends, so strips match one to one. False: for a vertical wing pointing down (dihedral above a right angle) the surface is placed elsewhere.", "quantifier": "all wings, segments, surfaces, stations and numbers of panels", "why_tests_cant": "all real geometries", "anchors": ["trunk/SUAVE/Methods/Aerodynamics/Common/Fidelity_Zero/Lift/make_VLM_wings.py: make_cs_wing_from_cs, make_span_breaks_from_cs", "trunk/SUAVE/Methods/Aerodynamics/Common/Fidelity_Zero/Lift/generate_vortex_distribution.py: generate_wing_vortex_distribution", "trunk/SUAVE/Methods/Flight_Dynamics/Static_Stability/Approximations/Supporting_Functions/convert_sweep.py: convert_sweep_segments"]}
{"id": "C134", "title": "Volume wave drag", "statement": "With begin < peak < end of the drag rise, each condition's coefficient is a volume part plus a lift part. Up to the beginning the volume part is the sum of the wings' drag rises, from the end on it is the wave drag, at the peak it is the multiplier times the wave drag at the beginning, in between a mean of these; it is continuous in the Mach number, and not negative for scaling and multiplier not negative, leading edge sweep up to 81 degrees and Mach numbers up to 6.2. Raymer's form is constant up to Mach 1.2 and never rises from 1.3 on; Sears-Haack's is 4/3 of the constant. Unknown forms, areas not fixed, and with Raymer's form several main wings, are refused. False: that the peak is the multiplier times the wave drag at the end of the drag rise.", "quantifier": "all vehicles, settings and lists of conditions", "why_tests_cant": "piecewise real functions of the Mach number, any number of conditions and wings", "anchors": ["trunk/SUAVE/Methods/Aerodynamics/Supersonic_Zero/Drag/compressibility_drag_total.py: compressibility_drag_total, drag_div", "trunk/SUAVE/Methods/Aerodynamics/Supersonic_Zero/Drag/wave_drag_volume_raymer.py: wave_drag_volume_raymer", "trunk/SUAVE/Methods/Aerodynamics/Supersonic_Zero/Drag/wave_drag_volume_sears_haack.py: wave_drag_volume_sears_haack"]}
{"id": "C135", "title": "Wave drag due to lift", "statement": "When the conditions below Mach 1.01 come last, each condition's lift part is that of its own Mach number and lift coefficient: proportional to the square of the lift coefficient, 0 below Mach 1.01 and up to the peak, and not negative while the Mach cone parameter is at most 0.178 or between 0.19 and 2.9. False otherwise: in general the k-th supersonic condition is given the value of the k-th condition of all, so an accelerating flight gets no drag due to lift where it should; outside those ranges the drag is negative.", "quantifier": "all vehicles and lists of conditions in any order", "why_tests_cant": "depends on the whole list of conditions", "anchors": ["trunk/SUAVE/Methods/Aerodynamics/Supersonic_Zero/Drag/compressibility_drag_total.py: lift_wave_drag", "trunk/SUAVE/Methods/Aerodynamics/Supersonic_Zero/Drag/wave_drag_lift.py: wave_drag_lift"]}
{"id": "C136", "title": "Supersonic parasite drag", "statement": "Up to the beginning of the blend a fuselage has the drag of the subsonic analysis; from its end on its form factor does not depend on the Mach number; it is above 1, continuous and greater for stouter fuselages. A nacelle's form factor falls continuously from the subsonic one to 1. Miscellaneous drag is a base term per nacelle plus one upsweep term, in any order. False: that a nacelle placed several times counts several times.", "quantifier": "all fuselages, nacelles, settings and Mach numbers", "why_tests_cant": "real functions; any number of nacelles", "anchors": ["trunk/SUAVE/Methods/Aerodynamics/Supersonic_Zero/Drag/parasite_drag_fuselage.py: parasite_drag_fuselage", "trunk/SUAVE/Methods/Aerodynamics/Supersonic_Zero/Drag/parasite_drag_nacelle.py: parasite_drag_nacelle", "trunk/SUAVE/Methods/Aerodynamics/Supersonic_Zero/Drag/miscellaneous_drag_aircraft.py: miscellaneous_drag_aircraft"]}
{"id": "C137", "title": "Lift before and after stall", "statement": "With the stall analysis the lift coefficient of a horizontal wing is odd about the angle of zero lift; between that angle and stall it is the wing's slope times the angle to within 1e-16, the slope growing with the aspect ratio and staying below the section's; shortly past stall and up to 92 degrees it is the fading curve alone, greatest at 41 degrees where it equals its stated maximum (at most 1.19), and 0 at 92 degrees. False: that the wing ever reaches its maximum lift coefficient before stall: for every section and aspect ratio it stays below.", "quantifier": "all sections, wings and angles of attack", "why_tests_cant": "real functions of section, wing and angle", "anchors": ["trunk/SUAVE/Methods/Aerodynamics/AERODAS/pre_stall_coefficients.py: pre_stall_coefficients", "trunk/SUAVE/Methods/Aerodynamics/AERODAS/post_stall_coefficients.py: post_stall_coefficients", "trunk/SUAVE/Methods/Aerodynamics/AERODAS/finite_aspect_ratio.py: finite_aspect_ratio", "trunk/SUAVE/Methods/Aerodynamics/AERODAS/section_properties.py: section_properties"]}
{"id": "C138", "title": "Drag before and after stall", "statement": "When the angle of least drag is that of zero lift, the drag coefficient of a horizontal wing is even about it, a parabola from the least drag up to the drag at stall on the linear range, and afterwards stays between the drag at stall and the stated maximum. The least drag falls as the Reynolds number grows and rises with the thickness. False: that a wing broadside to the wind has the stated maximum drag: at 90 degrees it has less.", "quantifier": "all sections, wings and angles of attack", "why_tests_cant": "real functions; piecewise with transcendental parts", "anchors": ["trunk/SUAVE/Methods/Aerodynamics/AERODAS/pre_stall_coefficients.py: pre_stall_coefficients", "trunk/SUAVE/Methods/Aerodynamics/AERODAS/post_stall_coefficients.py: post_stall_coefficients"]}
{"id": "C139", "title": "Stall analysis of a vehicle", "statement": "The vehicle's coefficients are the sums over its wings weighted by area, whatever their order, vertical wings giving no lift and a drag that does not depend on the angle of attack, plus the drag increment; lift is odd and drag even about the angle of zero lift, and before stall lift is linear in the angle of attack.", "quantifier": "all lists of wings, sections and angles", "why_tests_cant": "any number of wings", "anchors": ["trunk/SUAVE/Methods/Aerodynamics/AERODAS/AERODAS_setup.py: setup_data", "trunk/SUAVE/Analyses/Aerodynamics/AERODAS.py: AERODAS"]}
{"id": "C140", "title": "Cost of a programme", "statement": "Computing the costs succeeds exactly for the known types of aircraft; the totals are the sums of their items and the cost of an aircraft is its share of both totals. From 1967 on and with at least as many aircraft as prototypes no item is negative; a programme nowhere smaller in weight, Mach number, thrust, engines, passengers, difficulty or bought items costs no less, per aircraft and in both totals; amortised over the aircraft built, an aircraft costs no more when more are built. Prices never fall from 1935 on and are unchanged for 1970. False: that costs are positive in every year: up to 1963 engineering costs less than nothing; and prices fell from 1920 to 1925. Other types raise UnboundLocalError.", "quantifier": "all programmes (years, numbers, weights, speeds, types)", "why_tests_cant": "monotonicity in twelve real inputs and powers", "anchors": ["trunk/SUAVE/Methods/Costs/Correlations/Industrial_Costs/compute_industrial_costs.py: compute_industrial_costs", "trunk/SUAVE/Methods/Costs/Correlations/Industrial_Costs/estimate_escalation_factor.py: estimate_escalation_factor", "trunk/SUAVE/Methods/Costs/Correlations/Industrial_Costs/estimate_hourly_rates.py: estimate_hourly_rates"]}
{"id": "C141", "title": "Cash flow over the years", "statement": "For any number of years each year's share of a category is not negative, after k of n years the fraction of the table up to k/n has been spent, and the yearly amounts add up to the category's money to two millionths; without facilities the yearly totals add up to the programme's cost just as closely. False with facilities: their money is multiplied by the tooling money spent each year, not by its share, so the cash flow can exceed the cost without bound.", "quantifier": "all costs and numbers of years", "why_tests_cant": "any number of years; induction over years", "anchors": ["trunk/SUAVE/Methods/Costs/Correlations/Industrial_Costs/distribute_non_recurring_cost.py: distribute_non_recurring_cost"]}
{"id": "C142", "title": "Unit conversion", "statement": "For every table of units in which names stand for their own definitions, and every product of powers of plain (offset free) units of it, number * unit is the number times what the unit is worth in base units by its chain of definitions, and number / unit is the quotient; the two undo each other. Conversion between two such units works exactly when they have the same base units to the same powers, gives the ratio of their worths, and going through a third unit does not matter; other pairs are refused with an error. Products, quotients and non-zero powers of units are worth the product, quotient and power. False: the power 0 of a base unit: using it raises KeyError instead of being 1.", "quantifier": "all unit tables, products of units, exponents and numbers", "why_tests_cant": "unbounded chains of definitions and products", "anchors": ["trunk/SUAVE/Core/Units.py: __rmul__, __rdiv__", "trunk/SUAVE/Plugins/pint/unit.py: UnitsContainer, get_base_units, convert"]}
{"id": "C143", "title": "Temperatures", "statement": "For every temperature scale with a positive number of degrees per base unit and a zero point, number * scale is number/degrees + zero point, number / scale its inverse, in both orders the round trip is the identity, conversion between two scales is the same as through the base unit and keeps order. False: that units containing a temperature convert back: a product of other units with the base temperature unit multiplies as expected but dividing by it raises DimensionalityError, and a prefixed temperature unit is accepted as a name and raises TypeError when used.", "quantifier": "all scales, numbers and products", "why_tests_cant": "real valued; any compound unit", "anchors": ["trunk/SUAVE/Core/Units.py: __rmul__, __rdiv__", "trunk/SUAVE/Plugins/pint/unit.py: OffsetConverter, convert, parse_units"]}
{"id": "C144", "title": "A unit object used more than once", "statement": "For every sequence of multiplications and divisions with one and the same unit object: divisions before the first multiplication divide by the unit, the first multiplication multiplies by it, and everything after it returns the number unchanged, because multiplication turns the object into the base unit. So a stored unit (a = Units.ft; x*a; y*a) converts only once. Also false: that unit/number is the unit's value over the number: it is the number over the unit.", "quantifier": "all units and all sequences of operations", "why_tests_cant": "histories of any length", "anchors": ["trunk/SUAVE/Core/Units.py: __rmul__, __rdiv__"]}
{"id": "C145", "title": "Unit names", "statement": "Resolving a name gives a name that resolves to itself from then on; every other name keeps its definition, and so do all names when the new name was free; a prefix before a known name multiplies what the name is worth by the prefix's factor when no other splitting applies; a final s is ignored. False: that using a name is harmless: 'kgram' redefines the base unit kilogram in terms of gram, after which neither can be converted; and whether a name with two prefixes is known depends on the names used before.", "quantifier": "all tables and names", "why_tests_cant": "all strings and histories of look-ups", "anchors": ["trunk/SUAVE/Plugins/pint/unit.py: get_name, get_symbol, parse_unit_name, _dedup_candidates"]}
{"id": "C146", "title": "Shortest path between dimensions", "statement": "For every directed graph and pair of nodes, the search ends; a path it returns is a walk along edges from start to end without repeated nodes and no walk from start to end is shorter; it returns nothing exactly when there is no walk.", "quantifier": "all graphs and nodes", "why_tests_cant": "graphs of any size, cyclic or not", "anchors": ["trunk/SUAVE/Plugins/pint/util.py: find_shortest_path"]}
{"id": "C147", "title": "Dimensionless groups", "statement": "For all quantities with distinct names, at least one of which has a dimension, with any rational powers and the dimensions taken in any order, each group found is dimensionless, every dimensionless product of the quantities is a combination of the groups and no group is a combination of the others (so their number is the number of quantities less the rank); a group never has more negative than positive exponents. False: that the exponents are integers: only the largest denominator is cleared; and quantities that all have no dimension raise IndexError instead of being groups themselves.", "quantifier": "all lists of quantities, dimensions and rational powers", "why_tests_cant": "matrices of any size; a basis claim over all products", "anchors": ["trunk/SUAVE/Plugins/pint/util.py: pi_theorem, column_echelon_form, transpose"]}
{"id": "C148", "title": "Order of dependencies", "statement": "Ordering a table of dependencies ends exactly when no set of entries depend on one another in a circle (otherwise it never ends); then every entry and everything it needs is in exactly one layer, no layer is empty, whatever an entry needs is in an earlier layer, and something it needs is in the layer just before.", "quantifier": "all dependency tables", "why_tests_cant": "any number of entries; includes the never-ending case", "anchors": ["trunk/SUAVE/Plugins/pint/util.py: solve_dependencies"]}
{"id": "C149", "title": "Flow through a changing area", "statement": "The Mach number after an area change at a given inlet Mach number has, for every gas, exactly two solutions (one below, one above Mach 1) when the area is larger than that of Mach 1, one (Mach 1) when equal and none when smaller. A solution passes the same mass at the same stagnation state; a larger area makes the supersonic one faster and the subsonic one slower. The equation from area ratios has the same positive solutions as the one starting in a choked throat. False: that it has no others (the negatives solve it as well).", "quantifier": "all ratios of specific heats, area ratios and Mach numbers", "why_tests_cant": "a count of the roots over a continuum of equations", "anchors": ["trunk/SUAVE/Methods/Propulsion/fm_solver.py: fm_solver", "trunk/SUAVE/Methods/Propulsion/nozzle_calculations.py: mach_area"]}
{"id": "C150", "title": "Rocket thrust", "statement": "For every chamber, nozzle and flight state the thrust is engines times throttle times exhaust momentum plus pressure excess on the exit area, and never negative; it and the mass rate are proportional to the throttle, the specific impulse is not changed by it; it falls strictly with the outside pressure; among all expansion ratios the one that expands to the outside pressure gives strictly the most; the specific impulse stays below that of the chamber gas expanded into vacuum. With one engine thrust is mass rate times specific impulse times gravity. False: that with several engines (the mass rate is that of one), that sizing affects the thrust that is evaluated later, and that sizing works with conditions supplied by the caller.", "quantifier": "all engines, throttles, outside pressures and expansion ratios", "why_tests_cant": "an optimum over a continuum; all engines", "anchors": ["trunk/SUAVE/Components/Energy/Networks/Liquid_Rocket.py: Liquid_Rocket.evaluate_thrust, size", "trunk/SUAVE/Components/Energy/Processes/Rocket_Thrust.py: Rocket_Thrust.compute, size", "trunk/SUAVE/Methods/Propulsion/liquid_rocket_sizing.py: liquid_rocket_sizing"]}
{"id": "C151", "title": "States in a rocket nozzle", "statement": "Pressure, density, temperature, speed and Mach number reported at the exit satisfy the gas law, the definition of the Mach number, the energy equation and the isentropic pressure relation; without losses throat and exit pass the same mass. False: that they do with a stagnation pressure loss (they differ by a power of the loss, and energy is lost), and that the converging and diverging pressure ratios of the component matter: they are not read, the ratio that is read does not exist until set.", "quantifier": "all chambers, losses and expansion ratios", "why_tests_cant": "real-valued states", "anchors": ["trunk/SUAVE/Components/Energy/Converters/de_Laval_Nozzle.py: de_Laval_Nozzle.compute", "trunk/SUAVE/Components/Energy/Converters/Rocket_Combustor.py: Rocket_Combustor.compute"]}
{"id": "C152", "title": "Heat added in a duct", "statement": "The burner's equation and stagnation pressure ratio are those of any two states of a gas in a duct of constant area with equal mass flow and impulse. If the requested temperature is above that of the inflow and below the choking one, there is exactly one outflow Mach number on the same side of Mach 1, no further from 1; the temperature is the requested one and stagnation pressure is lost. From the choking temperature on, the outflow is at Mach 1 and the temperature is the choking one. The fuel ratio balances the energy and is not negative exactly when the gas is heated. False: that it is never negative (a hotter inflow).", "quantifier": "all gases, inflow states and requested temperatures", "why_tests_cant": "existence and uniqueness over a continuum", "anchors": ["trunk/SUAVE/Components/Energy/Converters/Combustor.py: Combustor.compute_rayleigh", "trunk/SUAVE/Methods/Propulsion/rayleigh.py: rayleigh"]}
{"id": "C153", "title": "Nozzle with limited area ratios", "statement": "Below the pressure behind a normal shock in an exit of mean area ratio, the exit pressure is the outside pressure clipped to the range the area ratios allow, the area ratio reported lies within its limits and is at a limit outside that range; the states reported satisfy the gas relations. The shock pressure lies between the supersonic and the subsonic isentropic pressures of that area ratio. From it on the exit pressure is the outside pressure. False: that the limits hold there (any larger area ratio is reported for some pressure), that the exit pressure is continuous, and that there is a speed when the outside pressure exceeds the stagnation pressure (nan).", "quantifier": "all gases, stagnation states, outside pressures and limits", "why_tests_cant": "regimes of a continuum", "anchors": ["trunk/SUAVE/Components/Energy/Converters/Supersonic_Nozzle.py: Supersonic_Nozzle.compute_limited_geometry", "trunk/SUAVE/Methods/Propulsion/nozzle_calculations.py: exit_Mach_shock, mach_area, normal_shock, pressure_ratio_isentropic, pressure_ratio_shock_in_nozzle"]}
{"id": "C154", "title": "Scramjet cycle", "statement": "Inlet and nozzle conserve energy, and mass; the burner balances momentum (with its drag and the fuel's) and energy (with the fuel's); the thrust is momentum out minus momentum in plus pressure excess, power is thrust times speed, fuel is the fuel ratio times the air; an engine sized at a state gives its design thrust there, proportional to the throttle; one never sized raises AttributeError. False: the stagnation temperature after the burner (right only at Mach 1) and that the air flow follows the flight state: it is that of the sizing state everywhere.", "quantifier": "all flight states, inlets, burners and nozzles", "why_tests_cant": "real-valued states; claims about every flight state after sizing", "anchors": ["trunk/SUAVE/Components/Energy/Networks/Scramjet.py: Scramjet.evaluate_thrust", "trunk/SUAVE/Components/Energy/Converters/Compression_Nozzle.py: Compression_Nozzle.compute_scramjet", "trunk/SUAVE/Components/Energy/Converters/Combustor.py: Combustor.compute_supersonic_combustion", "trunk/SUAVE/Components/Energy/Converters/Supersonic_Nozzle.py: Supersonic_Nozzle.compute_scramjet", "trunk/SUAVE/Components/Energy/Processes/Thrust.py: Thrust.compute_stream_thrust, size_stream_thrust", "trunk/SUAVE/Methods/Propulsion/scramjet_sizing.py: scramjet_sizing"]}
{"id": "C155", "title": "Emissions of a mission segment", "statement": "For every segment carbon dioxide, water and sulphur dioxide are fixed multiples of the fuel burned according to the integration; nitrogen oxides lie between the fuel times the smallest and times the largest index; the index is positive and grows with compressor pressure and with compressor and turbine temperatures.", "quantifier": "all integration rules, fuel flows and engine states", "why_tests_cant": "any number of points; monotone over a continuum", "anchors": ["trunk/SUAVE/Methods/Propulsion/turbofan_emission_index.py: turbofan_emission_index"]}
{"id": "C156", "title": "Optimised climb", "statement": "Whatever speeds and angles the optimiser tries, the climb starts and ends at the altitudes asked for (as long as its mean climb is not zero); between, altitude is the integral of climb rate over the clock that is set, which goes on from the start time; differentiation still undoes integration. Speeds are the given start and end speeds and the unknowns between them, in the direction of the flight path angle; angles that are all zero still climb. With angles between level and vertical and a higher end, time runs forward. False: with a lower end and speeds that climb on average (time runs backward).", "quantifier": "all numbers of points, integration rules, speeds and angles", "why_tests_cant": "any number of points; claims about every iterate", "anchors": ["trunk/SUAVE/Methods/Missions/Segments/Climb/Optimized.py: unpack_unknowns, update_differentials"]}
{"id": "C157", "title": "What an optimiser is told about a segment", "statement": "Provided an evaluation of the segment depends only on the unknowns and not on what was evaluated before (a hypothesis, not proved of the analyses), for every history of questions objective and constraints returned are those of the unknowns asked for. The inequalities hold exactly when time does not run backward, lift coefficients lie between 0 and the limit, altitudes and accelerations are not negative (end altitude, limit and end time positive). Both optimisers are given the same constraints, as many as announced, and each unknown its own bounds. False: that the segment is left at the optimum (it is left at the last point asked for), that the altitude constraint works below sea level, and that constraints which are not numbers are reported as failures.", "quantifier": "all histories of questions; all numbers of points; all evaluations that depend only on the unknowns", "why_tests_cant": "histories are unbounded", "anchors": ["trunk/SUAVE/Methods/Missions/Segments/optimize.py: converge_opt, get_objective, get_econstraints, get_ieconstraints, get_problem_pyopt, make_bnds", "trunk/SUAVE/Methods/Missions/Segments/Climb/Optimized.py: cache_inputs, objective, constraints"]}
{"id": "C158", "title": "Charging", "statement": "Charging takes the time in which the pack's charging power delivers the missing energy and a quarter more; discharging the time given; the clock covers that time. The first state of a battery is what the segment says and otherwise the air's temperature, full capacity and a fresh battery, with the state of charge energy over aged capacity; without an energy, energy, throughput and ageing stay as they were. Charging with no energy known raises UnboundLocalError. False: that the user's margin is used, that a mission can begin by charging (it takes no time), that each of several packs is given its time (only the last), that time runs forward when more energy than capacity is left, and that a segment without temperature deviation works.", "quantifier": "all energies, packs, numbers of networks and points", "why_tests_cant": "any number of networks; every combination of missing attributes", "anchors": ["trunk/SUAVE/Methods/Missions/Segments/Ground/Battery_Charge_Discharge.py: initialize_conditions", "trunk/SUAVE/Methods/Power/Battery/append_initial_battery_conditions.py: append_initial_battery_conditions"]}
{"id": "C159", "title": "Tracks flown for noise measurements", "statement": "For all speeds and angles the take-off track starts at 35 ft, climbs along the angle and covers at least the 6500 m to the microphone and 500 m more in as many half seconds as points; the approach is the last 4000 m of a straight line that ends at 50 ft and passes 2000 m before its end 2000 tan(angle) higher; its evenly spaced points are at most half a second apart. False: that those of the take-off are (however its points are placed, some step is longer).", "quantifier": "all speeds and angles, integration rules", "why_tests_cant": "real parameters; the number of points depends on them", "anchors": ["trunk/SUAVE/Methods/Missions/Segments/Climb/Constant_Speed_Constant_Angle_Noise.py: expand_state, initialize_conditions", "trunk/SUAVE/Methods/Missions/Segments/Descent/Constant_Speed_Constant_Angle_Noise.py: expand_state, initialize_conditions"]}
{"id": "C160", "title": "The way over the globe", "statement": "On a course to the north or south latitude changes by the angle flown over the ground and longitude not at all; to the east latitude is kept and longitude changes by the angle flown. False: north of the equator the change of longitude (a parallel is shorter), and on oblique courses the longitude (the cosine of degrees): it can run west while flying north-east.", "quantifier": "all planets, speeds, altitudes, courses along the axes and integration rules", "why_tests_cant": "real functions over any number of points", "anchors": ["trunk/SUAVE/Methods/Missions/Segments/Common/Frames.py: update_planet_position"]}
{"id": "C161", "title": "Points and ranges that are solved for", "statement": "At a solved single point the sum of lift, drag, thrust and weight is mass times the acceleration asked for, in the plane of flight, at the speed and altitude asked for (or the altitude of the point before; with neither AttributeError); without propulsion only vertically. If more distance leaves strictly less weight or charge, a solved range meets the (positive) target, is the only one, and the sign of the residual tells the side.", "quantifier": "all forces, states and missions as functions of distance", "why_tests_cant": "real-valued states", "anchors": ["trunk/SUAVE/Methods/Missions/Segments/Single_Point/Set_Speed_Set_Altitude.py: initialize_conditions, update_weights", "trunk/SUAVE/Methods/Missions/Segments/Single_Point/Set_Speed_Set_Altitude_No_Propulsion.py: residual_total_force", "trunk/SUAVE/Methods/Missions/Segments/Climb/Common.py: residual_total_forces", "trunk/SUAVE/Methods/Missions/Segments/Cruise/Variable_Cruise_Distance.py: residual_landing_weight, residual_state_of_charge"]}
{"id": "C162", "title": "Lifting line: the equations can be solved", "statement": "On every wing that is not vertical, with a positive span and positive chords at the stations, the equations of the lifting line have exactly one solution, whatever the number of stations (two divisions or more), the twist and the angle of attack; a call gives one lift and one drag coefficient, the same whenever it is repeated.", "quantifier": "all numbers of stations, chords, twists and angles", "why_tests_cant": "matrices of every size", "anchors": ["trunk/SUAVE/Methods/Aerodynamics/Lifting_Line/Lifting_Line.py: lifting_line"]}
{"id": "C163", "title": "Lifting line: lift", "statement": "Lift is linear in the angle of attack and strictly increasing, for every wing with positive chords, twisted or not. Its slope is at most that of the elliptic wing, 2 pi / (1 + 2/AR), when the aspect ratio given is that of the chords at the stations, and exactly that on elliptic chords, whose higher coefficients vanish. The lift coefficient is the lift of the circulation summed over the stations; left and right stations carry the same circulation.", "quantifier": "all numbers of stations, chords, twists and angles", "why_tests_cant": "an inequality over matrices of every size", "anchors": ["trunk/SUAVE/Methods/Aerodynamics/Lifting_Line/Lifting_Line.py: lifting_line"]}
{"id": "C164", "title": "Lifting line: chords and twists", "statement": "Without segments the chord runs straight from the root chord to taper times it. With segments in order from root to tip, chord and twist are interpolated between neighbours; segments that end before the tip raise IndexError; positive chords at root, tip and segments give positive chords at all stations. False: that the root has the twist of the root (without segments root and tip twist are exchanged), and that a station exactly at a segment has its chord and twist (it is given those of the root).", "quantifier": "all lists of segments and positions along the span", "why_tests_cant": "any number of segments", "anchors": ["trunk/SUAVE/Methods/Aerodynamics/Lifting_Line/Lifting_Line.py: lifting_line"]}
{"id": "C165", "title": "Lifting line: drag", "statement": "A vertical wing has neither lift nor drag. False: that induced drag does not depend on the sign of the angle: for untwisted wings, at every number of stations, changing the sign of the angle of attack changes the sign of the drag coefficient; with two divisions it is negative at all angles between -1 and 0.", "quantifier": "all untwisted wings, numbers of stations and angles", "why_tests_cant": "matrices of every size", "anchors": ["trunk/SUAVE/Methods/Aerodynamics/Lifting_Line/Lifting_Line.py: lifting_line"]}
{"id": "C166", "title": "Lifting line: what is fitted", "statement": "Lift and drag of the vehicle are those of the wings, each over its own area, put together over the reference area. The lift model fitted to the five training angles gives the lifting line's lift at every angle. False: that the drag model is one of drag due to lift (for untwisted wings it is a straight line through zero, so negative on one side unless it is zero), and that each wing has its own models: all wings are given the lift of the last one, as their drag too.", "quantifier": "all vehicles, numbers of stations and angles; all least squares fits", "why_tests_cant": "holds at every angle, not just those sampled", "anchors": ["trunk/SUAVE/Analyses/Aerodynamics/Lifting_Line.py: sample_training, build_surrogate, calculate_lift_lifting_line"]}
{"id": "C167", "title": "NACA four-digit airfoils", "statement": "For every four-digit name whose second digit is not 0 (or whose first is), every number of points from three on, and every positive bunching factor or none, the airfoil has exactly that many points. They start at the trailing edge, run along the lower surface to the nose at 0 with abscissae strictly decreasing and back along the upper surface with abscissae strictly increasing to 1, and lie at the family's mean line minus or plus its half thickness; the lists of the upper and lower surface are the same points from nose to tail. The mean line starts and ends at 0, stays between 0 and the named camber and reaches it only at the named place. The surfaces meet at the nose only (the trailing edge is open by 2.1% of the thickness), and the thickness is nowhere more than 0.1% above the named one. Names with fewer than four digits raise IndexError, those with camber and second digit 0 ZeroDivisionError. False: that the reported maximum thickness bounds the airfoil's: at 30% chord it is exceeded.", "quantifier": "all names, numbers of points and bunching factors", "why_tests_cant": "lists of every length", "anchors": ["trunk/SUAVE/Methods/Geometry/Two_Dimensional/Cross_Section/Airfoil/compute_naca_4series.py: compute_naca_4series"]}
{"id": "C168", "title": "Room inside a wing", "statement": "For wings of every positive span whose airfoil has its camber between 10% and 60% of the chord, the internal volume of a wing without taper is that swept by the box between the two spars (10% and 60%). It grows with the cube of the size. A zero span or camber at 0 or 1 raises ZeroDivisionError, nothing else raises. False: that it is the swept volume on tapered wings: it falls short by a term in the difference of the squares of the chords, given exactly.", "quantifier": "all chords, spans, thicknesses and cambers", "why_tests_cant": "an integral over the span", "anchors": ["trunk/SUAVE/Methods/Geometry/Three_Dimensional/estimate_naca_4_series_internal_volume.py: estimate_naca_4_series_internal_volume"]}
{"id": "C169", "title": "Fuselage planform", "statement": "With no length given, nose, cabin and tail add up to the length, and the seats stay; scaling all lengths scales the lengths, and the areas with the square. With a length given that leaves more than 1 m for the cabin, the lengths add up to it and the seats are a whole number within 1/2 of what fits. Round fuselages have the circumference and area of a circle; for ovals the effective diameter is between 1 and 61/48, and the wetted area of the cabin between 1 and 14/11, of those of the circle of mean diameter, whichever way the oval stands. False: that the lengths always add up (a nose or tail of length 0 is made 1 m long), and that sizing twice gives the same as once: the shape stays but the seats change.", "quantifier": "all fuselages", "why_tests_cant": "real quantities of every size", "anchors": ["trunk/SUAVE/Methods/Geometry/Two_Dimensional/Planform/fuselage_planform.py: fuselage_planform"]}
{"id": "C170", "title": "Origins relative to the vehicle", "statement": "Making the origins relative and dimensional again leaves those of wings and fuselages where they were, or moves them in proportion if the vehicle's length has been changed in between. Engines come back as mirrored copies of the first, an odd last one on the centreline. More engines than origins raises IndexError, as do engines without a relative origin; nothing else raises. False: that engines come back to where they were (four in two pairs, or a single one off the centreline).", "quantifier": "all vehicles with any number of wings, fuselages, networks and engines", "why_tests_cant": "lists of every length", "anchors": ["trunk/SUAVE/Methods/Geometry/Two_Dimensional/Planform/rescale_non_dimensional.py: set_origin_non_dimensional, set_origin_dimensional"]}
{"id": "C171", "title": "Tails, tanks and nacelles", "statement": "A tail sized from a volume coefficient has that coefficient, keeps everything but its area, and gets the planform of its new area. The fuel volume of a wing is 49.5% of thickness ratio times mean chord times area. Diameter, length, inlet and wetted area of a turbofan strictly increase with its thrust, as fixed powers of it; nacelle and inlet areas are as 2.1 to 1.", "quantifier": "all wings, tails and positive thrusts", "why_tests_cant": "real quantities of every size", "anchors": ["trunk/SUAVE/Methods/Geometry/Two_Dimensional/Planform/horizontal_tail_planform_raymer.py: horizontal_tail_planform_raymer", "trunk/SUAVE/Methods/Geometry/Two_Dimensional/Planform/vertical_tail_planform_raymer.py: vertical_tail_planform_raymer", "trunk/SUAVE/Methods/Geometry/Two_Dimensional/Planform/wing_fuel_volume.py: wing_fuel_volume", "trunk/SUAVE/Methods/Geometry/Two_Dimensional/Cross_Section/Propulsion/compute_turbofan_geometry.py: compute_turbofan_geometry"]}
{"id": "C172", "title": "Sweeps of a problem", "statement": "For every problem, table of inputs and number of points from two on, a line plot evaluates the problem at evenly spaced values of the chosen input from its lower to its upper bound with all other inputs as given, in order, and a carpet plot at every pair of such values of two different inputs, the second input along the rows. What is plotted is the objective in its own units, for non-zero scales and units. An index past the table raises IndexError. False: that the problem is left as it was: the swept input stays at its upper bound (everything else in the table is as before).", "quantifier": "all problems, tables, indices and numbers of points", "why_tests_cant": "every grid and every objective function", "anchors": ["trunk/SUAVE/Optimization/line_plot.py: line_plot", "trunk/SUAVE/Optimization/carpet_plot.py: carpet_plot"]}
{"id": "C173", "title": "Optimisation records", "statement": "For any way of printing numbers that reads back and uses no separators, and every non-empty list of entries with the same positive numbers of inputs and constraints, reading the file of written entries gives back exactly the iterations, objectives, inputs and constraints, in order; writing in two goes is writing at once. An entry without constraints or without inputs raises ValueError on reading, and an empty file IndexError. The recorded inputs are the optimiser's, so scaling them gives the table back, when bounds are given as pairs. False: that with separate bounds: the value is divided by the upper bound.", "quantifier": "all lists of entries, numbers and formats", "why_tests_cant": "files of every length", "anchors": ["trunk/SUAVE/Optimization/write_optimization_outputs.py: write_optimization_outputs", "trunk/SUAVE/Optimization/read_optimization_outputs.py: read_optimization_outputs"]}
{"id": "C174", "title": "Two-fidelity optimisation with additive corrections", "statement": "Whatever the two models and the inner optimiser do, when additive correction returns: every kept point was evaluated at both fidelities, no more than the allowed iterations were made, and each added one point to the samples (the last may add none if the optimiser fails). The basic method returns a point it evaluated; if it converged early the value is within the tolerance of the high fidelity one there, otherwise it is the high fidelity value and all iterations were used. 'MEI' returns the high fidelity value at its final point, never converges early and uses all iterations unless the optimiser fails. The corrected model equals the high fidelity one at all points if the surrogate passes through the differences. Edges of constraints say what the constraint says, for positive scales; those for SLSQP and SHGO do if units and scale agree. No iterations raise UnboundLocalError, a single input IndexError. False: that the SLSQP constraints are right for other scales.", "quantifier": "all models, optimisers, samples, tolerances and iteration limits", "why_tests_cant": "histories of every length", "anchors": ["trunk/SUAVE/Optimization/Package_Setups/additive_setup.py: Additive_Solver, evaluate_corrected_model, scale_vals, initialize_opt_vals_SLSQP, initialize_opt_vals_SHGO"]}
{"id": "C175", "title": "Iterated surrogate optimisation", "statement": "Whatever the surrogates are, iterated optimisation makes between one and the allowed number of evaluations, each at the optimum of the surrogate of all evaluations before it, and returns the objective at the last. It stops early only after at least two, when the next optimum is within 1e-4 of the last, and at the first such occasion from the third on; so if the objective has Lipschitz constant K its value there differs by at most K/10000. With none allowed it raises UnboundLocalError. Points of the sampling plan are within the bounds of the inputs, for positive scales.", "quantifier": "all objectives, surrogates, plans and limits", "why_tests_cant": "histories of every length", "anchors": ["trunk/SUAVE/Optimization/Surrogate_Optimization.py: Surrogate_Optimization"]}
{"id": "C176", "title": "XML files", "statement": "Every XML tree that is saved is read back with the same tags, attributes, elements and order, and with contents without the blanks at their ends, however the parser cuts the text into pieces; trees whose contents have no blanks at the ends are read back exactly. A dictionary becomes a tree with one element per entry, in order, with the key as tag: its text, or the tree of the dictionary in it; the root's tag is the dictionary's in lower case with blanks and punctuation replaced, or 'node'. It raises AttributeError exactly when some dictionary in it has a tag that is not a string.", "quantifier": "all trees, dictionaries and ways the parser reports text", "why_tests_cant": "trees of every shape and depth", "anchors": ["trunk/SUAVE/Input_Output/XML/save.py: save, indent", "trunk/SUAVE/Input_Output/XML/load.py: load, TreeBuilder", "trunk/SUAVE/Input_Output/XML/Data.py: Data"]}
{"id": "C177", "title": "Mind maps and d3 trees", "statement": "For every dictionary, each value in it is at the end of a branch of the mind map that spells its keys (after the dictionary's tag, if it has one), where lists add no level and None is left out; and each branch ends so or with the key of something without values. In the d3 tree the same holds with lists written out and empty dictionaries shown as {}; its root is named by the tag, else by the name given, else 'output'. Appending to a tree element always raises NameError. False: that different dictionaries give different d3 trees: an empty one and the text {} do not.", "quantifier": "all dictionaries, nested to any depth", "why_tests_cant": "trees of every shape and depth", "anchors": ["trunk/SUAVE/Input_Output/FreeMind/save.py: save", "trunk/SUAVE/Input_Output/D3JS/save_tree.py: save_tree, to_d3", "trunk/SUAVE/Input_Output/D3JS/Tree_Element.py: Tree_Element.append"]}
{"id": "C178", "title": "Redirected output", "statement": "After any program that prints, raises and redirects output, redirections nested in any way, the interpreter's two streams are those from before, all files opened for redirections and nothing else are closed, nothing is raised but what the program raised, and nothing written is lost. Within a redirection to a file prints go to the file, in order, and complaints where they went. False: that one redirection object can be used inside itself (the streams are not restored) or again (its file is closed).", "quantifier": "all programs of prints, failures and nested redirections", "why_tests_cant": "all nestings and points of failure", "anchors": ["trunk/SUAVE/Core/redirect.py: output"]}
{"id": "C179", "title": "Working in another folder", "statement": "When files with different names are pulled from elsewhere, each is copied into the folder before anything is done there, replacing what has its name, or not if not forced; nothing else changes. When the body is done, also if it raised, files with different names to be pushed are moved back in the same way, the interpreter is in the folder it was in, and what the body raised is raised. For the folder it is in already nothing is copied or moved. Pulling a file that is not there raises and destroys the one of its name in the folder. False: that the interpreter is always brought back: not when a file to be pushed is not there; and that no file is lost: one named twice is.", "quantifier": "all disks, folders, lists of names and bodies", "why_tests_cant": "every disk and every point of failure", "anchors": ["trunk/SUAVE/Core/redirect.py: folder"]}
{"id": "C180", "title": "Cryocoolers", "statement": "For every kind of cooler known and arrays of points with targets of 1 K or more, the cooler answers for all points or, exactly when one target lies below the coldest temperature it reaches, for none; that temperature moves with the ambient degree for degree. Each answer depends on its own point only, power and mass rise with the load, the ambient and a colder target, and equal shifts of ambient and target change nothing. From 24 K up no cooler ever needs less power than Carnot's. Other kinds cost nothing. False: that points are independent when one target is below 1 K; that a cooler in surroundings colder than its target is disabled, as is announced.", "quantifier": "all kinds of cooler, ambients, loads and targets, arrays of any length", "why_tests_cant": "all temperatures and loads", "anchors": ["trunk/SUAVE/Methods/Cryogenics/Cryocooler/cryocooler_model.py: cryocooler_model", "trunk/SUAVE/Components/Energy/Cooling/Cryocooler.py: Cryocooler.energy_calc"]}
{"id": "C181", "title": "Cryogen consumption", "statement": "For every cryogen and pressure, the heat a kilogram takes up between two temperatures is the difference of an enthalpy that is a function of temperature alone, so it may be split at any temperature but the boiling point; the flow times that heat is the load. With hydrogen from 15 K to 300 K and pressures up to 1.2 MPa there is always a positive flow, proportional to the load, less for warmer equipment and for colder coolant. The boiling point rises with pressure. False: that heating in two steps meeting at the boiling point takes the same heat (that of evaporation is lost), that there is an answer when the coolant is no colder and the equipment no warmer than the boiling point (it divides by zero), and that the flow cannot be negative.", "quantifier": "all cryogens, temperatures, pressures and loads", "why_tests_cant": "all temperatures, pressures and loads", "anchors": ["trunk/SUAVE/Methods/Weights/Cooling/Cryogen/Consumption/Coolant_use.py: Coolant_use", "trunk/SUAVE/Components/Energy/Cooling/Cryogenic_Heat_Exchanger.py: Cryogenic_Heat_Exchanger.energy_calc", "trunk/SUAVE/Attributes/Cryogens/Liquid_H2.py: Liquid_H2"]}
{"id": "C182", "title": "Cryogenic current leads", "statement": "For every material with positive continuous conductivities the least heat of a lead is proportional to its current and its square adds up along the lead. For materials with constant conductivities the cross section chosen lets in the least heat of all cross sections, half of it by conduction, and the mass grows with the current and with the square of the length. Up to the design current the heat reported is proportional to the current and the power to its square. False: that the heat at no current is the unpowered heat (0 is reported), and that currents above the design current are answered: up to 1.98 times the search never ends, and far above it divides by zero.", "quantifier": "all conducting materials, temperatures, lengths and currents; any number of rounds of the search", "why_tests_cant": "all materials and currents, and an unending search", "anchors": ["trunk/SUAVE/Methods/Cryogenics/Leads/lead_calculations.py: Q_min, LARatio, calc_current", "trunk/SUAVE/Components/Energy/Distributors/Cryogenic_Lead.py: Cryogenic_Lead.initialize_material_lead, Q_unpowered, Q_offdesign"]}
{"id": "C183", "title": "Dynamos and superconducting rotors", "statement": "For every dynamo and array of currents between 20% and 180% of the rated one, the efficiency lies between 36% and all of the rated efficiency, is greatest exactly at the rated current and falls with the distance from it; shaft power is output plus heat load, the load is never negative, and points without output take no power. One current out of range leaves every loaded point without a finite answer. The speed has no influence on a dynamo's supply. A supply's input times its efficiency is its output. A rotor's coil power is voltage times current and its heat load that power plus what leaks in, in proportion to the temperature difference; one without a surface, as by default, raises ZeroDivisionError.", "quantifier": "all dynamos, supplies, rotors, currents and outputs, arrays of any length", "why_tests_cant": "all currents and outputs", "anchors": ["trunk/SUAVE/Methods/Cryogenics/Dynamo/dynamo_efficiency.py: efficiency_curve", "trunk/SUAVE/Components/Energy/Distributors/HTS_DC_Dynamo_Basic.py: HTS_DC_Dynamo_Basic.shaft_power", "trunk/SUAVE/Components/Energy/Distributors/HTS_Dynamo_Supply.py: HTS_Dynamo_Supply.power_in", "trunk/SUAVE/Components/Energy/Distributors/HTS_DC_Supply.py: HTS_DC_Supply.power", "trunk/SUAVE/Components/Energy/Converters/Motor_HTS_Rotor.py: Motor_HTS_Rotor.power"]}
{"id": "C184", "title": "Flow over an airfoil by the panel method", "statement": "Whenever hess_smith answers for an outline whose panels have a length and whose panel middles lie on no other panel, the flow made of the oncoming stream and of the source and vortex sheets it solved for (integrals of point sources and point vortices over the panels) passes through no panel at its middle, and the tangential speeds it returns are the whole of that flow, one for each panel. The speeds at the two panels next to the trailing edge are equal and opposite (Kutta). Turning the airfoil and the stream together, scaling and moving the outline changes neither the solutions nor the speeds. Each panel's tangent and normal are orthogonal unit vectors and the panels join consecutive points.", "quantifier": "all outlines of any number of points, angles of attack, strengths solving the system, scales, rotations and shifts", "why_tests_cant": "the number of panels is unbounded and the influence coefficients are closed forms (logarithms and signed angles) of integrals; a test samples one airfoil and cannot see a wrong sign of an angle seen from one side", "anchors": ["trunk/SUAVE/Methods/Aerodynamics/Airfoil_Panel_Method/hess_smith.py: hess_smith", "trunk/SUAVE/Methods/Aerodynamics/Airfoil_Panel_Method/infl_coeff.py: infl_coeff", "trunk/SUAVE/Methods/Aerodynamics/Airfoil_Panel_Method/velocity_distribution.py: velocity_distribution", "trunk/SUAVE/Methods/Aerodynamics/Airfoil_Panel_Method/panel_geometry.py: panel_geometry"]}
{"id": "C185", "title": "Airfoil coefficients from surface pressures", "statement": "aero_coeff returns the components of the pressure force across and along the stream and its moment about the quarter chord; the sum of their squares is the force's; the coefficients are linear in the pressures; equal pressure everywhere leaves only the force of the gap between the first and the last point, so nothing at all on a closed outline. Each segment takes the pressure of its first point, so a symmetric outline under symmetric pressure at no incidence is given lift (witness). The viscous drag is proportional to the momentum thickness at the end of the upper side alone: the lower side's layer has no effect.", "quantifier": "all outlines, pressure lists, angles of attack and boundary layers", "why_tests_cant": "closed outlines of every shape and number of points must give exactly zero by telescoping; tests use one airfoil", "anchors": ["trunk/SUAVE/Methods/Aerodynamics/Airfoil_Panel_Method/aero_coeff.py: aero_coeff", "trunk/SUAVE/Methods/Aerodynamics/Airfoil_Panel_Method/airfoil_analysis.py: airfoil_analysis"]}
{"id": "C186", "title": "Closure relations of the boundary layer", "statement": "In laminar flow the shape factor falls and the wall shear rises with the pressure gradient parameter over the whole attached range, across the change of formula; the friction reported is positive even where the shear is negative, so separation cannot be seen (witness). In turbulent flow each piece of the two shape relations falls, stays above its limit, and the friction is positive and falls with the Reynolds number and the shape factor; the inverse relation is 3 below 3.3 but exceeds every bound just above (witness). The smoothing of jumps keeps the number of entries and the first, changes an entry only to its predecessor's old value and only if it jumps, and does nothing unless at least two entries jump; jumps may remain (witness).", "quantifier": "all parameter values, Reynolds numbers, lists and tolerances", "why_tests_cant": "monotonicity over an interval and over the join of two formulas, and lists of every length", "anchors": ["trunk/SUAVE/Methods/Aerodynamics/Airfoil_Panel_Method/thwaites_method.py: thwaites_method", "trunk/SUAVE/Methods/Aerodynamics/Airfoil_Panel_Method/heads_method.py: heads_method"]}
{"id": "C187", "title": "Ducted fan thrust, power and sizing", "statement": "A ducted fan's thrust is the momentum its air gains plus the nozzle's pressure force; when the nozzle expands to ambient pressure the power the network reports is exactly the kinetic energy given to the air each second, which exceeds thrust times speed. It burns no fuel in any condition. A fan sized for a design thrust gives that thrust at the design point at full throttle, and in proportion to the throttle. The sizing refuses a missing Mach number or altitude with NameError; with conditions given instead it always fails (witness: a name is bound only in the other branch).", "quantifier": "all flight conditions with a positive speed, nozzle states, reference states, bypass ratios, numbers of engines and throttles", "why_tests_cant": "equality of two differently written powers over all real conditions", "anchors": ["trunk/SUAVE/Components/Energy/Networks/Ducted_Fan.py: Ducted_Fan.evaluate_thrust", "trunk/SUAVE/Components/Energy/Processes/Thrust.py: Thrust.compute, Thrust.size", "trunk/SUAVE/Methods/Propulsion/ducted_fan_sizing.py: ducted_fan_sizing"]}
{"id": "C188", "title": "Battery and serial hybrid fan networks balance", "statement": "For throttles above 0 up to 1 the battery gives exactly what the motors (through motor and controller efficiency), the avionics and the payload take, less what the generator makes in the hybrid; its current times the bus voltage is that power; a battery network burns nothing and the hybrid's fuel flow is the generator's full power times its consumption whatever is needed; the battery charges exactly when the generator makes more than is taken. Above 1 the power is overstated in proportion to the throttle, and at a closed throttle there is no number at all (witnesses).", "quantifier": "all voltages, efficiencies, throttles, powers and loads", "why_tests_cant": "the balance must hold at every control point of every mission; tests fly a few with the throttle inside (0,1)", "anchors": ["trunk/SUAVE/Components/Energy/Networks/Battery_Ducted_Fan.py: Battery_Ducted_Fan.evaluate_thrust", "trunk/SUAVE/Components/Energy/Networks/Serial_Hybrid_Ducted_Fan.py: Serial_Hybrid_Ducted_Fan.evaluate_thrust", "trunk/SUAVE/Components/Energy/Converters/Generator_Zero_Fid.py: Generator_Zero_Fid.calculate_power"]}
{"id": "C189", "title": "Superconducting turboelectric networks account for power, cooling and fuel", "statement": "The generators together deliver the sum of the listed demands, their number does not change the fuel, the heat load is split between cryocooler and cryogen by the given share and nothing else, and the vehicle's mass falls by the fuel and the part of the cryogen that is not fuel. The sum asked is the motors' need plus the rotors' need plus the cooler's, plus, for several engines, an excess that is given exactly and is positive from two engines on (witness); with dynamos the rotors' power is asked for three times (witness). The motors are charged with thrust times speed, less than the kinetic energy of the jet (witness). The sizing rates the generators for all engines' needs exactly, so that for two engines or more they cannot feed the design point they were sized for (witness). A generator's mass grows as the pressure falls.", "quantifier": "all networks, numbers of engines, leads and supplies, efficiencies, powers, heat loads, cryocooler and heat exchanger functions", "why_tests_cant": "energy accounting over all configurations; a regression value cannot tell a power counted twice", "anchors": ["trunk/SUAVE/Components/Energy/Networks/Turboelectric_HTS_Ducted_Fan.py: Turboelectric_HTS_Ducted_Fan.evaluate_thrust", "trunk/SUAVE/Components/Energy/Networks/Turboelectric_HTS_Dynamo_Ducted_Fan.py: Turboelectric_HTS_Dynamo_Ducted_Fan.evaluate_thrust", "trunk/SUAVE/Methods/Propulsion/serial_HTS_turboelectric_sizing.py: serial_HTS_turboelectric_sizing", "trunk/SUAVE/Methods/Propulsion/serial_HTS_dynamo_turboelectric_sizing.py: serial_HTS_dynamo_turboelectric_sizing", "trunk/SUAVE/Methods/Power/Turboelectric/Sizing/initialize_from_power.py: initialize_from_power"]}
{"id": "C190", "title": "Airfoil coordinates in two blocks are read as they stand", "statement": "import_airfoil_dat gives, for a file of three header lines and two blocks of lines of numbers parted by blank lines, exactly the first block as upper and the second as lower surface, in order, however many blank lines come before, between and after; one block gives an empty lower surface and no block two empty ones. A third block raises IndexError and a field that is not a number ValueError; nothing is skipped silently.", "quantifier": "all files: any headers, any number of points, fields and blank lines", "why_tests_cant": "the parser is a state machine over arbitrarily long files", "anchors": ["trunk/SUAVE/Methods/Geometry/Two_Dimensional/Cross_Section/Airfoil/import_airfoil_dat.py: import_airfoil_dat"]}
{"id": "C191", "title": "Airfoil geometry files in both layouts give the same surfaces", "statement": "import_airfoil_geometry reads Lednicer's layout (counts above 1.01, surfaces parted by blank lines) and Selig's (once around from the trailing edge, with or without a title, with a point at x = 0) to both surfaces from the leading edge on, and the outline used is then the file's points once around in reverse. A repeated station of the upper surface makes both surfaces lose their first point and nothing else is dropped. The outline is moved so that its leftmost point is the origin, its ends come to x = 1 and to different heights. Outside this: a file in Selig's layout without a point at x = 0 loses its most forward point, the surface also turns where one text follows another in the order of characters although its number is smaller, a blank line raises IndexError, and a first character that is a digit other than 1 raises UnboundLocalError (witnesses).", "quantifier": "all files of either layout, all numbers of points", "why_tests_cant": "layouts are told apart and surfaces are split by heuristics; only a proof over all files shows when they are right", "anchors": ["trunk/SUAVE/Methods/Geometry/Two_Dimensional/Cross_Section/Airfoil/import_airfoil_geometry.py: import_airfoil_geometry"]}
{"id": "C192", "title": "Airfoils generated between two airfoils", "statement": "generate_interpolated_airfoils for n airfoils writes n - 2 files; reading the k-th back gives two surfaces whose every point divides the segment between the two airfoils' points of that number in the ratio k to n - 1 - k, strictly between the two; the ends of the range are the two airfoils themselves and the thickness at a station goes over linearly. What is written is always read back as it was written, whatever the title.", "quantifier": "all pairs of airfoils with equally many points, all n from 2 and all k", "why_tests_cant": "a round trip through a writer and a reader kept in different files, for every airfoil", "anchors": ["trunk/SUAVE/Methods/Geometry/Two_Dimensional/Cross_Section/Airfoil/generate_interpolated_airfoils.py: generate_interpolated_airfoils", "trunk/SUAVE/Methods/Geometry/Two_Dimensional/Cross_Section/Airfoil/import_airfoil_geometry.py: import_airfoil_geometry"]}
{"id": "C193", "title": "Airfoil polars are tabulated and interpolated", "statement": "import_airfoil_polars refuses fewer than three files; of each file it takes the Reynolds and Mach number of the header and the rows after the rule, ignoring empty lines at the end; a table without rows raises IndexError. With increasing angles the values returned are those of the table at its angles, stay within its bounds everywhere, and beyond its ends are those of the first or last row.", "quantifier": "all lists of files, headers, tables with increasing angles and numbers of angles asked for", "why_tests_cant": "holds for every table and angle", "anchors": ["trunk/SUAVE/Methods/Geometry/Two_Dimensional/Cross_Section/Airfoil/import_airfoil_polars.py: import_airfoil_polars"]}
{"id": "C194", "title": "Measured polars are laid over the extended ones", "statement": "apply_pre_stall_data keeps the number of angles; within the measured range each coefficient is the one measured at a nearest angle, so that measured angles keep their values, and outside the lift stays as extended; the drag outside never falls below its value at the end of the range and is otherwise unchanged. It answers exactly when the end values of the measured drag appear among the laid-over values; an angle grid that misses them raises IndexError (witness).", "quantifier": "all measured tables, extended polars and angle grids", "why_tests_cant": "depends on the relation of two arbitrary grids", "anchors": ["trunk/SUAVE/Methods/Geometry/Two_Dimensional/Cross_Section/Airfoil/compute_airfoil_properties.py: apply_pre_stall_data"]}
{"id": "C195", "title": "What pyOptSparse is given and told", "statement": "With positive scales every constraint is handed to pyOptSparse under its name with bounds on the scaled value that hold exactly when the constraint is satisfied; with distinct names the answers are one entry each, objectives first; the problem is asked for each variable's own value if the solver's dictionary keeps the order of the table. Otherwise not: values in another order are taken for other variables, an output that is objective and constraint at once is reported once, with the constraint's scaling, constraints that are not numbers are never reported as a failure, and two objectives raise ValueError (witnesses).", "quantifier": "all constraint tables, names, values, dictionaries and scales", "why_tests_cant": "unbounded tables and all real values; the solver is an external package that tests cannot enumerate", "anchors": ["trunk/SUAVE/Optimization/Package_Setups/pyoptsparse_setup.py: Pyoptsparse_Solve, PyOpt_Problem"]}
{"id": "C196", "title": "What Ipopt is given", "statement": "Where scale and units of a constraint agree, the limits given to Ipopt hold exactly when the constraint is satisfied; with any other positive scale and a bound that is not 0 there is a value on which solver and problem disagree. The pattern of the Jacobian lists every pair of constraint and variable once, and the values stand in the same order: each is the difference quotient of its constraint along its variable. The limits come as tables of five equal columns, so that read in order the k-th number is that of constraint k/5, not k.", "quantifier": "all constraint tables, problems, points, step sizes and dimensions", "why_tests_cant": "index arithmetic over all dimensions; the set-up cannot run without the external solver", "anchors": ["trunk/SUAVE/Optimization/Package_Setups/ipopt_setup.py: Ipopt_Solve, eval_jac_g, make_structure", "trunk/SUAVE/Optimization/Nexus.py: Nexus.finite_difference"]}
{"id": "C197", "title": "Surrogate problems", "statement": "A surrogate problem has one surrogate for each column of constraint values, and where the regression passes through its data it answers with the data. In SI units the limits given with it hold exactly when an inequality is satisfied; for inequalities in other units there is always a value on which they disagree, and equalities are dropped. Leaving a point out for checking support vector regression removes exactly that point, for positions from the front and from the end except the default: the last point stays and all others count twice; and the prediction is always made at the last point.", "quantifier": "all constraints, data sets, regressions and positions", "why_tests_cant": "holds for every data set and every regression method", "anchors": ["trunk/SUAVE/Optimization/Package_Setups/pyopt_surrogate_setup.py: pyopt_surrogate_setup", "trunk/SUAVE/Surrogate/Surrogate_Problem.py: Surrogate_Problem.compute", "trunk/SUAVE/Surrogate/scikit_surrogate_functions.py: build_scikit_models", "trunk/SUAVE/Surrogate/kriging_surrogate_functions.py: build_kriging_models", "trunk/SUAVE/Surrogate/svr_surrogate_functions.py: build_svr_models, check_svr_accuracy"]}
{"id": "C198", "title": "Trim drag of a failed engine balances its moment", "statement": "For a vehicle with a reference area, a first vertical surface and a network, the first element of asymmetry_drag's answer is the induced drag of the side force on that surface which balances, about the centre of gravity, the moment of one engine's thrust and the windmilling drag. It is the same for an engine on the other side, never negative, zero exactly when the engine stands at the centre line or the forces cancel, and falls with the square of height times arm. The state's windmilling drag is used when none is given; only the first network counts. Without a vertical surface or a network the call raises UnboundLocalError, with a plain number as aerodynamic centre and a list as origin TypeError. The answer is a row of three elements of which only the first is a drag (witness).", "quantifier": "all vehicles, wings, networks, dynamic pressures and drag coefficients", "why_tests_cant": "a law over all geometries and forces, and error cases over all vehicles", "anchors": ["trunk/SUAVE/Methods/Aerodynamics/Common/Fidelity_Zero/Helper_Functions/asymmetry_drag.py: asymmetry_drag"]}
{"id": "C199", "title": "Reference area, windmilling drag, lift over drag and thrust with an engine out", "statement": "The reference area is the vehicle's if it is set and not zero, else sref of the last main wing, else of the first wing; the library's wings have no sref, so that AttributeError is raised when a main wing is there, and UnboundLocalError when no wing is. Windmilling drag times this area is 0.007274 times the wetted area of all nacelles, in any order, also of the running engines (witness). The lift over drag ratio of the second segment uses the last main wing, or else the first wing, takes 1.2 as default speed ratio and does not fall with aspect ratio or speed ratio. engine_out gives the full-throttle thrust less one engine's share whatever the throttle, and leaves the throttle as it was.", "quantifier": "all vehicles, lists of wings and nacelles, throttle histories and numbers of engines", "why_tests_cant": "selection rules over lists of any length and laws over all reals", "anchors": ["trunk/SUAVE/Methods/Aerodynamics/Common/Fidelity_Zero/Helper_Functions/windmilling_drag.py: windmilling_drag", "trunk/SUAVE/Methods/Aerodynamics/Common/Fidelity_Zero/Helper_Functions/estimate_2ndseg_lift_drag_ratio.py: estimate_2ndseg_lift_drag_ratio", "trunk/SUAVE/Components/Energy/Networks/Turbofan.py: Turbofan.engine_out"]}
{"id": "C200", "title": "Speed-altitude diagram of an electric aircraft", "statement": "At the stall speed the greatest lift coefficient carries exactly the weight, slower it does not. electric_V_h_diagram answers, for a whole number of grid points and enough propellers, with a square table of altitudes up to the ceiling and speeds below the greatest; an entry is never negative, zero where the aircraft cannot fly or has no power to spare, and otherwise the climb rate whose product with the weight is the lesser of propeller and battery power less drag times speed. Identical propellers give the same power whether flagged so or not; fewer propellers than engines raise IndexError. The default number of grid points, 20., always raises TypeError (witness).", "quantifier": "all aircraft, atmospheres, drag and power functions, ceilings, speeds and grid sizes from 2", "why_tests_cant": "a table of any size over arbitrary functions", "anchors": ["trunk/SUAVE/Methods/Performance/electric_V_h_diagram.py: electric_V_h_diagram", "trunk/SUAVE/Methods/Performance/propeller_range_endurance_speeds.py: stall_speed"]}
{"id": "C201", "title": "Speeds for best range and endurance", "statement": "If scipy's search stops at a least value between its bounds, the speeds answered lie between stall speed and upper bound, the values answered are CL^1.5/CD and CL/CD at these speeds, and no speed between the bounds has a greater one; both functions agree on CL/CD. For a parabolic polar in level flight the best CL/CD is 1/(2 sqrt(CD0 K)), at the speed where CL = sqrt(CD0/K), if that is in range.", "quantifier": "all polars, bounds and searches that find a least value; all parabolic polars, masses and densities", "why_tests_cant": "an optimum is a claim about every speed of an interval", "anchors": ["trunk/SUAVE/Methods/Performance/propeller_range_endurance_speeds.py: propeller_range_endurance_speeds", "trunk/SUAVE/Methods/Performance/maximum_lift_to_drag.py: maximum_lift_to_drag"]}
{"id": "C202", "title": "Engine decks beyond their throttle range", "statement": "The extended surrogates of an engine deck agree with the regression for throttles from 0.01 to 0.99. At and beyond throttle 0 and 1 the thrust goes on along the one straight line through the predictions at 0 and 1 and the consumption keeps its end values; in the bands between, the values lie between the prediction and what holds beyond. If the regression is continuous in the throttle, thrust and consumption are continuous at every throttle.", "quantifier": "all regressions, altitudes, Mach numbers and throttles, also negative ones and above 1", "why_tests_cant": "continuity is a claim about every throttle and every regression", "anchors": ["trunk/SUAVE/Components/Energy/Networks/Propulsor_Surrogate.py: Propulsor_Surrogate.extended_thrust_surrogate, Propulsor_Surrogate.extended_sfc_surrogate", "trunk/SUAVE/Methods/Utilities/Cubic_Spline_Blender.py: Cubic_Spline_Blender"]}
{"id": "C203", "title": "Engine decks give back their table and their anchors", "statement": "Where the regression passes through its data and no anchor is set, an engine deck answers the condition of each row of its file with the row's thrust and the fuel flow of its consumption; rows that are there twice do not matter. With anchors it gives the anchored thrust and consumption at the anchored conditions. At or below zero throttle both are zero unless negative throttles are asked for; the thrust vector of a rotation is as long as the thrust. The fuel flow is multiplied with the number of engines and the thrust is not; at zero throttle the extended thrust jumps to 0; support vector regression always raises IndexError and unknown names are refused (witnesses).", "quantifier": "all files, regressions, anchors, conditions and numbers of engines", "why_tests_cant": "a round trip through scaling, regression and unscaling over all tables", "anchors": ["trunk/SUAVE/Components/Energy/Networks/Propulsor_Surrogate.py: Propulsor_Surrogate.build_surrogate, Propulsor_Surrogate.evaluate_thrust"]}
{"id": "C204", "title": "Wings laid out for AVL", "statement": "A wing with segments becomes one AVL section for each segment, with its chord, twist and airfoil, the first where the wing is. Without anhedral the sections lie at the spanwise stations of the segments (for fins: heights), each panel rises by its dihedral, goes back by its length times the tangent of a given leading-edge sweep, and the quarter-chord line of a flat panel is swept as given (with dihedral exactly if the panel has equal chords). A wing without segments has its tip at the semispan with the rise of its dihedral and its quarter-chord line swept as given; a flat wing of one panel comes out the same both ways. A panel with anhedral is laid towards the other side, upwards, and forwards if swept back (refuted).", "quantifier": "all wings with any number of segments, all chords, sweeps, dihedrals, twists and origins", "why_tests_cant": "geometry accumulates over any number of panels", "anchors": ["trunk/SUAVE/Methods/Aerodynamics/AVL/create_avl_datastructure.py: populate_wing_sections"]}
{"id": "C205", "title": "AVL sections at control surfaces", "statement": "Every start and end of a control surface within the span of a wing with segments gets a section on the straight line between the sections of the same wing without control surfaces, with the chord in between, that carries exactly the control surfaces that reach it, with their hinge, sense and deflection; no other section carries any, in particular not the tip. Sections come from root to tip, no two at one station. Known control surfaces always succeed, unknown ones raise AttributeError. The twist at a break lies in between only if the break is at the inner end, the outer twist is zero or the root chord is 1 m (outer twist is multiplied by the root chord). A wing without segments succeeds with control surfaces off the root and no coordinate file; a control surface at its root raises IndexError, and a coordinate file with a break AttributeError (refuted).", "quantifier": "all wings, all lists of control surfaces, overlapping ones too, all breaks", "why_tests_cant": "any number of overlapping surfaces and breaks over any number of segments", "anchors": ["trunk/SUAVE/Methods/Aerodynamics/AVL/create_avl_datastructure.py: populate_wing_sections, append_avl_wing_control_surfaces"]}
{"id": "C206", "title": "Bodies, order and mass in AVL files", "statement": "All sections of a surface are written, each once, by span or for vertical surfaces by height; sections already in order are kept. A body with width has eleven sections, the same on both sides, each within the body and no shorter than the cabin, the middle one the whole body, the outermost ones the cabin; without width it has none. The mass file has the vehicle's mass if only that or only the maximum take-off mass is given; with both given it raises AttributeError.", "quantifier": "all lists of sections, all bodies, finenesses and masses", "why_tests_cant": "sorting and shape claims over all lists and all real sizes", "anchors": ["trunk/SUAVE/Methods/Aerodynamics/AVL/create_avl_datastructure.py: populate_body_sections", "trunk/SUAVE/Methods/Aerodynamics/AVL/write_geometry.py: make_surface_text", "trunk/SUAVE/Methods/Aerodynamics/AVL/write_mass_file.py: write_mass_file"]}
{"id": "C207", "title": "Jet noise levels", "statement": "Mixing the two streams of a jet keeps mass, momentum and total enthalpy, and speed and temperature of the mixed jet lie between theirs. The bypass correction runs from 0 to 4, the scale of source distances from 0 to 1; excitation and share of the mixed jet have no jumps. Twice as far from the engine is 20 log10 2 dB quieter besides the attenuation of the air; the total level adds the powers of the three jets and is at most 10 log10 3 dB above the loudest; installation adds 0 to 2.5 dB per band, the ground 0 to 5 times the jet's Mach number, a non-negative angle of attack nothing negative. In the first 23 bands the primary jet's level at each step is that of the step alone; in the last band it is the sum of the plug effects of all steps so far (refuted).", "quantifier": "all jets, distances, levels, angles, heights and all sequences of steps", "why_tests_cant": "bounds and laws over all real inputs and histories of any length", "anchors": ["trunk/SUAVE/Methods/Noise/Fidelity_One/Engine/noise_SAE.py: noise_SAE", "trunk/SUAVE/Methods/Noise/Fidelity_One/Engine/primary_noise_component.py: primary_noise_component", "trunk/SUAVE/Methods/Noise/Fidelity_One/Engine/jet_installation_effect.py: jet_installation_effect", "trunk/SUAVE/Methods/Noise/Fidelity_One/Engine/ground_proximity_effect.py: ground_proximity_effect", "trunk/SUAVE/Methods/Noise/Fidelity_One/Engine/angle_of_attack_effect.py: angle_of_attack_effect", "trunk/SUAVE/Methods/Noise/Fidelity_One/Engine/external_plug_effect.py: external_plug_effect"]}
{"id": "C208", "title": "Search for the places of jet noise sources", "statement": "The angle computed for a source is the direction in which the microphone is seen from it. If the place of a source rises with its angle no more steeply than twice the distance of the microphone from the axis of the jet, the search ends from whatever it starts from, at an angle between 0 and a half turn; its last round moves the source by no more than the tolerance. The places of all three jets rise so with a computed steepness; for the primary jet the search ends for every microphone that is 36/pi diameters or more off the axis, for all fans.", "quantifier": "all microphones, all starting angles, all jets", "why_tests_cant": "termination of an unbounded loop", "anchors": ["trunk/SUAVE/Methods/Noise/Fidelity_One/Engine/noise_source_location.py: noise_source_location"]}
{"id": "C209", "title": "Aerodynamic derivatives by finite differences", "statement": "For a coefficient that depends smoothly on the angle of attack, side slip, throttle or a deflection, the derivative reported is its slope at a point between that of the flight and that of the perturbed flight: within a ten-thousandth of the pitch or throttle, 1e-4 rad of side slip, 0.1 of deflection, each control surface moved alone. With surrogates the moments' derivatives by deflections are 0. At zero pitch or zero throttle there is none: not a number (refuted). Without side wind, the flight perturbed in speed goes the same way faster by a ten-thousandth; with side wind it is faster than that (refuted). The derivative by speed has three columns, of which only the first, and only in level flight, is the change over the change of speed (refuted for others).", "quantifier": "all evaluations of a segment, all flights, all smooth coefficients", "why_tests_cant": "holds for every differentiable response, not one aircraft", "anchors": ["trunk/SUAVE/Methods/Flight_Dynamics/Static_Stability/compute_aero_derivatives.py: compute_aero_derivatives"]}
{"id": "C210", "title": "File of wave drags from OpenVSP", "statement": "After any history of beginning the analysis, asking for total drags and asking for volume drags, the volume drag at each Mach number is 0 below 1.05 and OpenVSP's answer otherwise; one once answered is answered the same from the file without asking OpenVSP until the analysis begins anew; a call with a file fails only if OpenVSP does, and then what was answered before stays in the file. At 1.05 the numbers of slices and rotations asked for are not used (refuted). The compressibility drag of the analysis never comes back for any vehicle: it calls a function of four parameters with five, or without wings uses an unbound variable (refuted).", "quantifier": "all histories of calls, all Mach numbers, whatever OpenVSP answers and wherever it fails", "why_tests_cant": "histories and crash points of any length over a file", "anchors": ["trunk/SUAVE/Methods/Aerodynamics/OpenVSP_Wave_Drag/wave_drag_volume.py: wave_drag_volume", "trunk/SUAVE/Methods/Aerodynamics/OpenVSP_Wave_Drag/compressibility_drag_total.py: compressibility_drag_total", "trunk/SUAVE/Analyses/Aerodynamics/Supersonic_OpenVSP_Wave_Drag.py: initialize"]}
{"id": "C211", "title": "Panels of one wing", "statement": "The panels extracted for a wing from a vortex distribution are those of that wing, both halves if it is symmetric, in order, with its numbers of panels; the panels of all wings one after the other, then those of nacelles and fuselages, are all panels; an index beyond the wings raises IndexError. Of a half with 32768 panels there are none (16-bit product, refuted).", "quantifier": "all lists of wings, symmetric or not, all bodies, all numbers of panels below 32768 per half", "why_tests_cant": "indices accumulate over any number of wings", "anchors": ["trunk/SUAVE/Methods/Aerodynamics/Common/Fidelity_Zero/Lift/extract_wing_VD.py: extract_wing_collocation_points"]}
{"id": "C212", "title": "Equivalent area due to lift", "statement": "The equivalent area at each place where there is a panel is sqrt(M^2-1)/(2q) times the lift of all panels up to it, the last that of all lift; places come once each, increasing. Neither the order of the panels nor the dynamic pressure matters. With the added ends the places increase exactly if all panels are between nose and 1.25 lengths; without panels it raises IndexError. Panels off the axis are put where the tangent of the Mach angle says, on the Mach plane only at a Mach number of the root of 2 (refuted otherwise).", "quantifier": "all panels and pressures in any order, all supersonic flight conditions", "why_tests_cant": "sums over any number of panels with coinciding places", "anchors": ["trunk/SUAVE/Methods/Noise/Boom/lift_equivalent_area.py: lift_equivalent_area"]}
{"id": "C213", "title": "Airfoils as masks of cells", "statement": "An airfoil whose places increase from 0 becomes a mask with as many columns as its shortest step goes into the chord, rounded up. A cell is marked exactly if it lies in a row of the mask and strictly between the lower and the upper surface at the last place not beyond it, measured in cells from the lowest point. The rows hold the whole airfoil if its chord is 1 or more; with a shorter chord they may not (refuted). Two backward steps in a row give no mask.", "quantifier": "all airfoils with increasing places, all numbers of points, all cells", "why_tests_cant": "rounding and repetition for all real coordinates and sizes", "anchors": ["trunk/SUAVE/Methods/Geometry/Two_Dimensional/Cross_Section/Airfoil/convert_airfoil_to_meshgrid.py: convert_airfoil_to_meshgrid"]}
{"id": "C214", "title": "Containers of analyses run their members in order", "statement": "Evaluating (or calling) a container of analyses returns exactly when its members, run one after the other in the order they were added, each from the world its predecessors left, all succeed; the results are theirs, each under its member's tag, in the same order. A member without an evaluate method is called. The first member that fails ends the evaluation with its exception and no later member runs. Compiling and finalizing run that method of every member that has it, in order. Initializing a container raises TypeError for every container, even an empty one, and initializes nothing.", "quantifier": "all containers with distinct tags, members with arbitrary effects, and states of the world", "why_tests_cant": "sequences of arbitrary members and failures at every position", "anchors": ["trunk/SUAVE/Analyses/Analysis.py: Container.compile, Container.initialize, Container.evaluate, Container.finalize, Container.__call__, Analysis.evaluate"]}
{"id": "C215", "title": "Convergence of a rotor's vortex wake", "statement": "Converging a rotor's vortex wake always ends, within the maximum number of passes (exactly one for a fully prescribed wake), whatever the wake induces. With a tolerance below 1 the disc velocity of every pass is what the wake shaped by the one before induces, every change but the last exceeds the tolerance, and the last one does not or the limit is reached; converged means that at every station the change is within the tolerance; the velocities returned are those of the last pass and the wake returned is shaped by the last disc velocity. With a tolerance of 1 or more the call raises UnboundLocalError for every rotor. A wake that induces nan is taken for converged at once.", "quantifier": "all rotors, wakes, tolerances, limits and induced velocity functions", "why_tests_cant": "loops over arbitrary induced velocities", "anchors": ["trunk/SUAVE/Methods/Propulsion/Rotor_Wake/Fidelity_One/fidelity_one_wake_convergence.py: fidelity_one_wake_convergence"]}
{"id": "C216", "title": "Grid of points behind a wing", "statement": "The grid behind a wing is the full product of its spanwise places and its heights, all in the plane asked for, in the order spanwise place first; it is the same seen from either side of the aircraft; no height is beyond H times the half span when the fine part lies within it; with a length below 1 the places are exactly the wing's strips within that part of the span, and with at least 1.01 all the strips and points from 1.01 half spans up to the length. With a length of exactly 1 there is a point outside the length.", "quantifier": "all spans, heights, lengths, numbers of points and strips", "why_tests_cant": "products of lists of any length with real coordinates", "anchors": ["trunk/SUAVE/Methods/Aerodynamics/Common/Fidelity_Zero/Lift/generate_wing_wake_grid.py: generate_wing_wake_grid"]}
{"id": "C217", "title": "Grid of points at a propeller", "statement": "A radial propeller grid has Na times Nr points, each between the hub radius and 99% of the tip radius from the axis of the influenced propeller relative to the influencing one, at equally spaced angles in [0, 2 pi) with none repeated; a cartesian grid has exactly the points of the square mesh whose distance from that axis is below the radius. One propeller origin only raises IndexError and any other kind of grid UnboundLocalError.", "quantifier": "all propeller origins, radii, and numbers of points", "why_tests_cant": "lists of any length with real coordinates", "anchors": ["trunk/SUAVE/Methods/Aerodynamics/Common/Fidelity_Zero/Lift/generate_propeller_grid.py: generate_propeller_grid"]}
{"id": "C218", "title": "Viscous deficit of a wing's wake", "statement": "The viscous deficit of a wing's wake is zero when it is switched off, ahead of the wing and outside its span. Behind the trailing edge within the span it is positive, the same above and below and on either side, largest in the wing's plane, half of that at half the wake's width from it, the product of largest deficit and width is 4 V theta sqrt(ln 2/pi), and the streamwise velocity is reduced by deficit over speed. From the leading to the trailing edge the velocity is nan.", "quantifier": "all wings, planes, points and speeds", "why_tests_cant": "real functions of all positions", "anchors": ["trunk/SUAVE/Methods/Aerodynamics/Common/Fidelity_Zero/Lift/compute_wing_wake.py: compute_wing_wake"]}
{"id": "C219", "title": "Certification noise levels", "statement": "The number of control points that a certification noise call asks for is between 1 and 200; up to 99.5 s of flight they are at most half a second apart and one fewer would not do, longer flights get 200. Whenever the track is a cubic in height (a straight climb for one) with four different heights, the sideline microphone is put exactly where the aircraft passes 304.8 m. The flyover level is that of the sound powers of climb and cutback together: above the louder, by at most 10 log10 2 dB, whatever the order. The points come too late: every call returns the level of the flight with the number of points there before it, so only a second call uses the new number, and from then on the levels agree when the time flown does not depend on the points. A flight that ends a second or more before its start raises AttributeError for sideline and flyover.", "quantifier": "all flights, tracks, fits that minimise the squared errors, levels, and sequences of calls", "why_tests_cant": "real tracks of any number of points and histories of calls of any length", "anchors": ["trunk/SUAVE/Methods/Noise/Certification/sideline_noise.py: sideline_noise", "trunk/SUAVE/Methods/Noise/Certification/flyover_noise.py: flyover_noise", "trunk/SUAVE/Methods/Noise/Certification/approach_noise.py: approach_noise"]}
{"id": "C220", "title": "Inflow of a propeller in a wing's wake", "statement": "For one flight condition the wake is taken at the place of every blade element (its radius from the axis, azimuths 2 pi j/Na); the axial velocity is the speed times the wake's, the radial and tangential ones the speed times the wake's components inwards and backwards (forwards for the other sense of rotation), nan where the wake is not known; no part of the velocity is lost; in a wake that is the same all over the disc the tangential and the radial velocities around a turn add up to zero. With several flight conditions the call raises ValueError, unless they are as many as the azimuths, and then azimuth j gets the speed of condition j.", "quantifier": "all wakes, radii, numbers of azimuths (at least two), speeds and conditions", "why_tests_cant": "real fields and sums over any number of azimuths", "anchors": ["trunk/SUAVE/Methods/Aerodynamics/Common/Fidelity_Zero/Lift/compute_propeller_nonuniform_freestream.py: compute_propeller_nonuniform_freestream"]}
{"id": "C221", "title": "Slices of a vehicle along Mach planes", "statement": "Every Mach number is cut along its own plane, in order, with its own angle of attack or the only one given; the plane makes the Mach angle with the x-axis, turned by the angle of attack. The areas are OpenVSP's times the x-component of the plane's direction, in order, less one last slice without area. A slice is put where its plane meets the axis only if its centre is on the axis or the Mach number is the square root of two.", "quantifier": "all Mach numbers above 1, angles of attack and slices", "why_tests_cant": "real angles and lists of any length", "anchors": ["trunk/SUAVE/Input_Output/OpenVSP/mach_slices.py: mach_slices"]}
