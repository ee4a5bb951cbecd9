{
 "claims": [
  {
   "property": "C01",
   "status": "proved",
   "theorems": [
    "C01_number_of_steps",
    "C01_repeated_runs"
   ],
   "note": "real arithmetic"
  },
  {
   "property": "C02",
   "status": "proved",
   "theorems": [
    "C02_exact_steps",
    "C02_binary64_refuted"
   ],
   "note": "real arithmetic for the positive half; IEEE binary64 (SpecFloat) for the refutation"
  },
  {
   "property": "C03",
   "status": "proved",
   "theorems": [
    "C03_every_step_recorded",
    "C03_stamps"
   ],
   "note": "any arithmetic; C03_stamps and C01 give the clock in real arithmetic"
  },
  {
   "property": "C04",
   "status": "proved",
   "theorems": [
    "C04_later_frames_appended",
    "C04_first_frame_is_live",
    "C04_immutability_refuted"
   ],
   "note": "any arithmetic; the witness is computed in exact rationals"
  },
  {
   "property": "C05",
   "status": "proved",
   "theorems": [
    "C05_nearest_node",
    "C05_probe_node",
    "C05_source_node"
   ],
   "note": ""
  },
  {
   "property": "C06",
   "status": "proved",
   "theorems": [
    "C06_rejected_iff_outside",
    "C06_otherwise_accepted",
    "C06_increasing_line_accepts_nodes",
    "C06_decreasing_line_rejects_all"
   ],
   "note": "any arithmetic for the exact condition; reals for increasing and decreasing lines"
  },
  {
   "property": "C07",
   "status": "proved",
   "theorems": [
    "C07_accepted_iff",
    "C07_cell_points_accepted",
    "C07_beyond_the_end_accepted",
    "C07_probe_reads_closest_node"
   ],
   "note": "real numbers; the outermost line of the bundle is built with equal divisions"
  },
  {
   "property": "C08",
   "status": "proved",
   "theorems": [
    "C08_any_type_accepted",
    "C08_detected_when_stepping",
    "C08_known_types_never_raise"
   ],
   "note": "any arithmetic"
  },
  {
   "property": "C09",
   "status": "proved",
   "theorems": [
    "C09_voltage_equation"
   ],
   "note": ""
  },
  {
   "property": "C10",
   "status": "proved",
   "theorems": [
    "C10_current_equation",
    "C10_plain_current_equation"
   ],
   "note": ""
  },
  {
   "property": "C100",
   "status": "proved",
   "theorems": [
    "C100_sum",
    "C100_short",
    "C100_RC",
    "C100_RL",
    "C100_RL_series"
   ],
   "note": "over the reals"
  },
  {
   "property": "C101",
   "status": "proved",
   "theorems": [
    "C101_rational",
    "C101_signs",
    "C101_noise",
    "C101_short"
   ],
   "note": "over the reals; the generator's outcome is an argument"
  },
  {
   "property": "C102",
   "status": "proved",
   "theorems": [
    "C102_below",
    "C102_above",
    "C102_continuous_refuted",
    "C102_resistance"
   ],
   "note": "C102_continuous_refuted: the jump at f0"
  },
  {
   "property": "C103",
   "status": "proved",
   "theorems": [
    "C103_export",
    "C103_fails",
    "C103_diagonal",
    "C103_diagonal_refuted"
   ],
   "note": "C103_diagonal_refuted: for every number of ports >= 2 and every number of poles other than ports + 1"
  },
  {
   "property": "C104",
   "status": "proved",
   "theorems": [
    "C104_balance",
    "C104_never_grows",
    "C104_bounded",
    "C104_assembled"
   ],
   "note": "Voltages are half a step older than currents, so the energy the scheme balances has a mixed term; C104_bounded turns it into a bound on the sum of squares. The loss in the capacitors is that of their backward Euler integration."
  },
  {
   "property": "C105",
   "status": "proved",
   "theorems": [
    "C105_document",
    "C105_line_values",
    "C105_ends_on_first_conductor"
   ],
   "note": "C105_document chains bundles, sources and probes; C105_line_values gives the numbers over the reals"
  },
  {
   "property": "C106",
   "status": "proved",
   "theorems": [
    "C106_ends_in_order",
    "C106_end_replaces"
   ],
   "note": "C106_ends_in_order places each end in the chain, C106_end_replaces gives its effect on every entry"
  },
  {
   "property": "C107",
   "status": "proved",
   "theorems": [
    "C107_sources",
    "C107_rows",
    "C107_conductor_of_the_cable_refuted"
   ],
   "note": "C107_conductor_of_the_cable_refuted: the conductor is counted in the whole bundle"
  },
  {
   "property": "C108",
   "status": "proved",
   "theorems": [
    "C108_probes"
   ],
   "note": ""
  },
  {
   "property": "C109",
   "status": "proved",
   "theorems": [
    "C109_sin_shape",
    "C109_sin_extremes",
    "C109_sin_period",
    "C109_frequency_in_hertz_refuted",
    "C109_double_exp_sign",
    "C109_double_exp_below",
    "C109_double_exp_peak"
   ],
   "note": "C109_frequency_in_hertz_refuted: a document's frequency is an angular one"
  },
  {
   "property": "C11",
   "status": "proved",
   "theorems": [
    "C11_left_terminal",
    "C11_right_terminal",
    "C11_short_circuit_left",
    "C11_short_circuit_right"
   ],
   "note": "for lines whose time step and end conductance are those of the construction; C32 covers the other lines"
  },
  {
   "property": "C110",
   "status": "proved",
   "theorems": [
    "C110_double_exp_travels",
    "C110_trapezoid_travels",
    "C110_ramp_shape",
    "C110_ramp_travels_refuted",
    "C110_ramp_bounded_refuted"
   ],
   "note": "C110_ramp_travels_refuted and C110_ramp_bounded_refuted hold for every amplitude, speed and rise time"
  },
  {
   "property": "C111",
   "status": "proved",
   "theorems": [
    "C111_error_bounds",
    "C111_pointwise_limit",
    "C111_curved_if_second_derivative",
    "C111_curved_has_derivative"
   ],
   "note": "terminal impedances are positive, so an ideal generator at an end (impedance zero) is not covered; the order is one: the generators act with the delay of C11 and the solution is only assumed to have bounded second derivatives"
  },
  {
   "property": "C112",
   "status": "proved",
   "theorems": [
    "C112_reciprocity",
    "C112_exchange"
   ],
   "note": "a terminal that is a short circuit (impedance zero) is not covered"
  },
  {
   "property": "C113",
   "status": "proved",
   "theorems": [
    "C113_quiet",
    "C113_time_invariance",
    "C113_later_generator"
   ],
   "note": "the delay is a whole number of time steps; C113_time_invariance and C113_later_generator are for lines without dispersive elements, C113_quiet for all lines"
  },
  {
   "property": "C114",
   "status": "proved",
   "theorems": [
    "C114_settles",
    "C114_settles_on_average",
    "C114_ring_down",
    "C114_series_circuits",
    "C114_voltage_divider",
    "C114_one_solution",
    "C114_untied_alternates"
   ],
   "note": "C114_one_solution: the circuit of a damped lossy line has exactly one solution; C114_untied_alternates shows why starts_tied is asked"
  },
  {
   "property": "C115",
   "status": "proved",
   "theorems": [
    "C115_transform",
    "C115_modes",
    "C115_balanced",
    "C115_impedance_level",
    "C115_impedance_level_single"
   ],
   "note": "lines without dispersive elements; the two lines run with the same time step, which is the constructor's when both modes have the same velocity (C115_modes_example)"
  },
  {
   "property": "C116",
   "status": "proved",
   "theorems": [
    "C116_quiet",
    "C116_quiet_rc",
    "C116_causality",
    "C116_causality_rc",
    "C116_time_invariance",
    "C116_time_invariance_rc",
    "C116_calls",
    "C116_built"
   ],
   "note": "C116_time_invariance is for bundles in which no element stores more than one pole, and for delays of whole steps; the _rc versions need no assumption on the linear solver for circuits of resistors and capacitors"
  },
  {
   "property": "C117",
   "status": "proved",
   "theorems": [
    "C117_window",
    "C117_ends"
   ],
   "note": "law-free: holds of every arithmetic, floating point included; C117_lines shows that the bound of one cell per step is sharp"
  },
  {
   "property": "C118",
   "status": "proved",
   "theorems": [
    "C118_front",
    "C118_uniform",
    "C118_diverges",
    "C118_diverging_lines"
   ],
   "note": "C118_diverging_lines builds such lines with the API, for every bound"
  },
  {
   "property": "C119",
   "status": "proved",
   "theorems": [
    "C119_runs_join",
    "C119_durations"
   ],
   "note": "law-free: no assumption on the arithmetic or on the linear algebra routines"
  },
  {
   "property": "C12",
   "status": "proved",
   "theorems": [
    "C12_superposition",
    "C12_sources"
   ],
   "note": "real arithmetic; dispersive connector memory included; all three runs are assumed not to raise"
  },
  {
   "property": "C120",
   "status": "proved",
   "theorems": [
    "C120_components",
    "C120_node_balance"
   ],
   "note": "sources in series with a branch between two nodes are left out: C54 shows that their currents do not add up; several components to ground at one node overwrite each other (C53)"
  },
  {
   "property": "C121",
   "status": "proved",
   "theorems": [
    "C121_charge",
    "C121_supply",
    "C121_floating"
   ],
   "note": "same networks of lines as C104; C121_supply and C121_floating leave out sources in series with a branch between two nodes (C54)"
  },
  {
   "property": "C122",
   "status": "proved",
   "theorems": [
    "C122_flux",
    "C122_charge"
   ],
   "note": "bundles that march with the step of the network of lines; the flux law is for bundles without dispersive elements (kD, kE, kQ1, kQ2 zero and no pole ever added)"
  },
  {
   "property": "C13",
   "status": "proved",
   "theorems": [
    "C13_line",
    "C13_new_line",
    "C13_network",
    "C13_network_rc",
    "C13_network_run",
    "C13_new_bundle",
    "C13_new_circuit",
    "C13_new_network"
   ],
   "note": "a line, with any sequence of step() and run_until() calls (C13_line), and a network of lines after any number of steps of a run (C13_network: the solver refuses singular systems; C13_network_rc: circuits of resistors and capacitors); new lines, bundles, circuits and networks of lines are at rest"
  },
  {
   "property": "C14",
   "status": "proved",
   "theorems": [
    "C14_window",
    "C14_source"
   ],
   "note": "any arithmetic"
  },
  {
   "property": "C15",
   "status": "proved",
   "theorems": [
    "C15_causality",
    "C15_causality_all"
   ],
   "note": "real arithmetic"
  },
  {
   "property": "C16",
   "status": "proved",
   "theorems": [
    "C16_bounce_diagram",
    "C16_any_uniform_line",
    "C16_diagram_exists",
    "C16_diagram_unique"
   ],
   "note": "real arithmetic; LAPACK assumed correct, and complete for the version stated on constructor calls"
  },
  {
   "property": "C17",
   "status": "proved",
   "theorems": [
    "C17_pure_delay"
   ],
   "note": "real arithmetic; LAPACK assumed correct and complete"
  },
  {
   "property": "C18",
   "status": "proved",
   "theorems": [
    "C18_energy_balance",
    "C18_energy_never_grows",
    "C18_losses_nonneg",
    "C18_whole_run",
    "C18_weights"
   ],
   "note": "real arithmetic; LAPACK assumed correct; lines without dispersive connectors and without incident field (the balance is an exact identity per step and over whole runs)"
  },
  {
   "property": "C19",
   "status": "proved",
   "theorems": [
    "C19_bounded_for_ever",
    "C19_margin",
    "C19_many_conductors"
   ],
   "note": "real arithmetic; single-conductor lines at any step up to the default one, and lines of any number of conductors when the step satisfies the cell-wise Courant condition"
  },
  {
   "property": "C20",
   "status": "proved",
   "theorems": [
    "C20_mirror"
   ],
   "note": "real arithmetic; LAPACK assumed correct; lines without dispersive connectors, both built with the same time step"
  },
  {
   "property": "C21",
   "status": "proved",
   "theorems": [
    "C21_uncoupled"
   ],
   "note": "real arithmetic; LAPACK assumed correct; lines without dispersive connectors; the single-conductor line has the same time step now and at construction (the code's default steps differ when the velocities differ)"
  },
  {
   "property": "C22",
   "status": "proved",
   "theorems": [
    "C22_relabel"
   ],
   "note": "real arithmetic; LAPACK assumed correct; lines without dispersive connectors, both built with the same time step"
  },
  {
   "property": "C23",
   "status": "proved",
   "theorems": [
    "C23_second_run",
    "C23_one_long_run",
    "C23_exact_durations",
    "C23_prepare_idempotent"
   ],
   "note": "any arithmetic"
  },
  {
   "property": "C24",
   "status": "proved",
   "theorems": [
    "C24_interior_source_ignored",
    "C24_source_replaced"
   ],
   "note": "any arithmetic"
  },
  {
   "property": "C25",
   "status": "proved",
   "theorems": [
    "C25_copy_is_reset",
    "C25_copy_runs_like_the_original",
    "C25_copy_keeps_dispersive_history"
   ],
   "note": "any arithmetic for the reset and the kept history; reals for the equality of runs"
  },
  {
   "property": "C26",
   "status": "proved",
   "theorems": [
    "C26_geometry"
   ],
   "note": "real numbers; one theorem for every vertex list and division count"
  },
  {
   "property": "C27",
   "status": "proved",
   "theorems": [
    "C27_index_error",
    "C27_misplaced_vertex",
    "C27_3_2_refuted"
   ],
   "note": "IndexError criterion for every arithmetic; misplaced vertices for every unequal list that the constructor accepts; computed [3,2] case"
  },
  {
   "property": "C28",
   "status": "proved",
   "theorems": [
    "C28_accepted",
    "C28_rejected"
   ],
   "note": "any arithmetic"
  },
  {
   "property": "C29",
   "status": "proved",
   "theorems": [
    "C29_accepted",
    "C29_rejected"
   ],
   "note": "any arithmetic"
  },
  {
   "property": "C30",
   "status": "proved",
   "theorems": [
    "C30_diagonal",
    "C30_mixed_rejected",
    "C30_other_shapes_rejected"
   ],
   "note": "reals for the stored matrices, any arithmetic for the rejections"
  },
  {
   "property": "C31",
   "status": "proved",
   "theorems": [
    "C31_default_step",
    "C31_courant"
   ],
   "note": "real numbers, LAPACK assumed correct"
  },
  {
   "property": "C32",
   "status": "proved",
   "theorems": [
    "C32_terminals_keep_old_step",
    "C32_equation_broken",
    "C32_set_time_step_refuted",
    "C32_no_capacitance_agrees"
   ],
   "note": ""
  },
  {
   "property": "C33",
   "status": "proved",
   "theorems": [
    "C33_one_row_of_one_cell",
    "C33_otherwise_raises",
    "C33_point_conductor_0",
    "C33_point_other_conductors",
    "C33_bundle_one_row_of_one_cell",
    "C33_bundle_otherwise_raises",
    "C33_bundle_accepts"
   ],
   "note": "real numbers; lines and bundles"
  },
  {
   "property": "C34",
   "status": "proved",
   "theorems": [
    "C34_position_ignored",
    "C34_point_conductor_0",
    "C34_point_other_conductors",
    "C34_bundle_uses_closest_node",
    "C34_bundle_one_row_of_one_node",
    "C34_bundle_otherwise_raises",
    "C34_bundle_accepts"
   ],
   "note": "real numbers; lines and bundles"
  },
  {
   "property": "C35",
   "status": "proved",
   "theorems": [
    "C35_square_pulse",
    "C35_triangle_pulse"
   ],
   "note": "real numbers; square and triangle pulse"
  },
  {
   "property": "C36",
   "status": "proved",
   "theorems": [
    "C36_ramp_shape",
    "C36_ramp_bounded",
    "C36_ramp_monotone",
    "C36_corner_refuted"
   ],
   "note": "real numbers; the doubled corner is part of the statement"
  },
  {
   "property": "C37",
   "status": "proved",
   "theorems": [
    "C37_period",
    "C37_every_time_has_a_phase",
    "C37_shape",
    "C37_bounded",
    "C37_symbolic_shape"
   ],
   "note": "real numbers; numeric and symbolic variants, the doubled corners are part of the statement"
  },
  {
   "property": "C38",
   "status": "proved",
   "theorems": [
    "C38_sin_sq_pulse",
    "C38_gaussian",
    "C38_gaussian_2",
    "C38_exp"
   ],
   "note": "real numbers"
  },
  {
   "property": "C39",
   "status": "proved",
   "theorems": [
    "C39_add_pointwise",
    "C39_add_commutes",
    "C39_add_associates",
    "C39_two_integers",
    "C39_multiply"
   ],
   "note": "pointwise over the reals; the integer rule and multiply for every arithmetic"
  },
  {
   "property": "C40",
   "status": "proved",
   "theorems": [
    "C40_segment_accepted",
    "C40_accepted_points",
    "C40_short_segments_refuted"
   ],
   "note": "real numbers; includes the witness family for short segments"
  },
  {
   "property": "C41",
   "status": "proved",
   "theorems": [
    "C41_connector_weights",
    "C41_weights"
   ],
   "note": "real arithmetic; the constant and proportional parts of the stored entry are in C47"
  },
  {
   "property": "C42",
   "status": "proved",
   "theorems": [
    "C42_line",
    "C42_bundle",
    "C42_intended_refuted"
   ],
   "note": "real arithmetic; lines and bundles"
  },
  {
   "property": "C43",
   "status": "proved",
   "theorems": [
    "C43_both_is_ignored",
    "C43_both_is_accepted"
   ],
   "note": "any arithmetic"
  },
  {
   "property": "C44",
   "status": "proved",
   "theorems": [
    "C44_couples_listed_pairs",
    "C44_connector_replaces",
    "C44_levels_must_be_adjacent",
    "C44_accepted"
   ],
   "note": "any arithmetic"
  },
  {
   "property": "C45",
   "status": "proved",
   "theorems": [
    "C45_one_way_has_no_memory"
   ],
   "note": "real arithmetic; lines of the bundle without dispersive elements of their own"
  },
  {
   "property": "C46",
   "status": "proved",
   "theorems": [
    "C46_null_model",
    "C46_zero_model"
   ],
   "note": "any arithmetic, and the version stated on zero real coefficients"
  },
  {
   "property": "C47",
   "status": "proved",
   "theorems": [
    "C47_connector_entry",
    "C47_not_at_the_last_node",
    "C47_not_outside",
    "C47_only_on_a_free_entry",
    "C47_never_twice",
    "C47_accepted"
   ],
   "note": "any arithmetic; the version over arbitrary later calls is for real numbers"
  },
  {
   "property": "C48",
   "status": "proved",
   "theorems": [
    "C48_block_diagonal",
    "C48_rows",
    "C48_rows_distinct",
    "C48_counts",
    "C48_smallest_step",
    "C48_common_nodes",
    "C48_accepted_iff",
    "C48_rejected_with"
   ],
   "note": "any arithmetic; the time step and the equality of nodes for real numbers"
  },
  {
   "property": "C49",
   "status": "proved",
   "theorems": [
    "C49_line_as_if_alone"
   ],
   "note": "real arithmetic; LAPACK assumed correct; the line's cell lengths equal the outermost line's (equal divisions)"
  },
  {
   "property": "C50",
   "status": "proved",
   "theorems": [
    "C50_accumulates",
    "C50_fraction_of_the_cell",
    "C50_fraction_range",
    "C50_on_nodes",
    "C50_accepted",
    "C50_end_in_last_half_cell_raises"
   ],
   "note": "any arithmetic for accumulation; straight bundles over the reals for the fractions"
  },
  {
   "property": "C51",
   "status": "proved",
   "theorems": [
    "C51_kirchhoff",
    "C51_states"
   ],
   "note": "For every network reached by any history of calls whose last circuit operation was computing its terms, and every successful solve."
  },
  {
   "property": "C52",
   "status": "proved",
   "theorems": [
    "C52_passive",
    "C52_order",
    "C52_accepted"
   ],
   "note": "Symmetry, zero row sums, negative semidefinite form and order independence for every list of branches; plus exactly when the calls are accepted."
  },
  {
   "property": "C53",
   "status": "proved",
   "theorems": [
    "C53_overwrites",
    "C53_branch_then_ground",
    "C53_ground_then_branch",
    "C53_ground_twice",
    "C53_not_passive"
   ],
   "note": "Overwriting, both orders and grounding twice; plus the consequence that branch-then-ground with Rg>R is not passive."
  },
  {
   "property": "C54",
   "status": "proved",
   "theorems": [
    "C54_one_source",
    "C54_two_sources",
    "C54_opposed",
    "C54_superposition_refuted"
   ],
   "note": "Source currents of one branch and of two branches sharing a node (both orientations); superposition of branches refuted."
  },
  {
   "property": "C55",
   "status": "proved",
   "theorems": [
    "C55_zero_with_source",
    "C55_zero_alone",
    "C55_unknown",
    "C55_series",
    "C55_series_unknown"
   ],
   "note": "connect_to_ground and unknown nodes: for every arithmetic (law-free); when connect_to_ground_LCpRs is accepted: over the reals."
  },
  {
   "property": "C56",
   "status": "proved",
   "theorems": [
    "C56_reversed",
    "C56_circuit_dissipates",
    "C56_reversed_grows"
   ],
   "note": "The stamped state equations are those of the circuit run backwards in time; the true circuit dissipates, the reversed one has unbounded solutions for every h < l/r, h < r c."
  },
  {
   "property": "C57",
   "status": "proved",
   "theorems": [
    "C57_nodes",
    "C57_state_variables",
    "C57_numbering",
    "C57_accepted",
    "C57_line_ends"
   ],
   "note": "For every description and every later history; acceptance exactly characterised."
  },
  {
   "property": "C58",
   "status": "proved",
   "theorems": [
    "C58_voltages",
    "C58_voltages_total",
    "C58_currents",
    "C58_currents_total"
   ],
   "note": "Frame condition for every arithmetic, totality iff every node resolves, sign of the current over the reals."
  },
  {
   "property": "C59",
   "status": "proved",
   "theorems": [
    "C59_registered",
    "C59_level_0"
   ],
   "note": "Row after k registrations for every k; right exactly when k = 1 or the level offset is 0."
  },
  {
   "property": "C60",
   "status": "proved",
   "theorems": [
    "C60_collide"
   ],
   "note": "The second line of a level is mapped to the rows of the first, for every bundle, network and conductor."
  },
  {
   "property": "C61",
   "status": "proved",
   "theorems": [
    "C61_same",
    "C61_conductance",
    "C61_conductance_refuted"
   ],
   "note": "SpecSolo.soloed is the network of lines with one line grounded at both ends through the line's own terminal impedances and sources; plain_line: at rest, diagonal non-zero terminals, no fields or dispersive elements. C61_same: identical times, voltages and currents after any number of steps when the end nodes carry no conductance (the inside may). C61_conductance: with conductance there they agree over a step only if it carries no current; C61_conductance_refuted: any g>0 line driven by a constant source differs after one step (finding)."
  },
  {
   "property": "C62",
   "status": "proved",
   "theorems": [
    "C62_accepted",
    "C62_duplicate",
    "C62_order",
    "C62_add",
    "C62_unique",
    "C62_smallest_step",
    "C62_large_steps_ignored"
   ],
   "note": "For every list of bundles and every later history; the 1e10 initial value is part of the statement."
  },
  {
   "property": "C63",
   "status": "proved",
   "theorems": [
    "C63_end_kept",
    "C63_run_end"
   ],
   "note": "For every reachable network of lines and every arithmetic."
  },
  {
   "property": "C64",
   "status": "proved",
   "theorems": [
    "C64_run",
    "C64_whole_run",
    "C64_same",
    "C64_built"
   ],
   "note": "For every permutation of bundles and of networks with disjoint ends, every arithmetic, any number of steps."
  },
  {
   "property": "C65",
   "status": "proved",
   "theorems": [
    "C65_explicit_step",
    "C65_own_step",
    "C65_inconsistent",
    "C65_refuted"
   ],
   "note": "Telegrapher's equations with an explicit step; with the own step otherwise; inconsistent unless frozen; a concrete run refutes the network's step."
  },
  {
   "property": "C66",
   "status": "proved",
   "theorems": [
    "C66_frames",
    "C66_stamps",
    "C66_probe_step"
   ],
   "note": "Frames for every arithmetic, stamps over the reals."
  },
  {
   "property": "C67",
   "status": "proved",
   "theorems": [
    "C67_superposition",
    "C67_superposition_rc",
    "C67_run",
    "C67_calls",
    "C67_built"
   ],
   "note": "any circuits if the linear solver refuses singular systems (as numpy does), circuits of resistors and capacitors without that assumption; C67_calls and C67_built: how combined networks arise from the API"
  },
  {
   "property": "C68",
   "status": "proved",
   "theorems": [
    "C68_orthonormal",
    "C68_slowness",
    "C68_travels",
    "C68_value",
    "C68_speed",
    "C68_networks"
   ],
   "note": "All angles and speeds; the slowness and the field value need a direction without zero components (otherwise the code divides by zero)."
  },
  {
   "property": "C69",
   "status": "proved",
   "theorems": [
    "C69_isometry",
    "C69_up",
    "C69_down",
    "C69_along_x",
    "C69_wave",
    "C69_polarization_refuted"
   ],
   "note": "All segments, over the reals; segments along x give nan. Also: the polarisation angle is not rotated and one azimuth sign is lost (refutations)."
  },
  {
   "property": "C70",
   "status": "proved",
   "theorems": [
    "C70_waves",
    "C70_frequencies",
    "C70_zero_rejected",
    "C70_vector_position"
   ],
   "note": "waves in terms of the centred DFT of the recorded samples; frequencies; zero reference impedance rejected; ports at a 3-vector position never give waves (finding)"
  },
  {
   "property": "C71",
   "status": "proved",
   "theorems": [
    "C71_columns",
    "C71_swap",
    "C71_entry_point",
    "C71_port_probe"
   ],
   "note": "column structure for any pair of solved runs; index swap; through the public entry point extraction always raises (getSolvedProbesFromLine is modelled as the AttributeError it raises)"
  },
  {
   "property": "C72",
   "status": "proved",
   "theorems": [
    "C72_vertices_and_edges",
    "C72_tree",
    "C72_accepted"
   ],
   "note": "every document and nesting; the tree statement needs that no element is listed twice"
  },
  {
   "property": "C73",
   "status": "proved",
   "theorems": [
    "C73_row",
    "C73_found",
    "C73_coupling"
   ],
   "note": "every listing order of a set that lists each member once; lines are found when cable names are unique"
  },
  {
   "property": "C74",
   "status": "proved",
   "theorems": [
    "C74_first_line",
    "C74_none",
    "C74_raises",
    "C74_later_never"
   ],
   "note": "every list of lines; an empty coordinate list before the wanted line raises IndexError"
  },
  {
   "property": "C75",
   "status": "proved",
   "theorems": [
    "C75_partition",
    "C75_accepted",
    "C75_groups",
    "C75_last_termination",
    "C75_last_junction",
    "C75_first_lost"
   ],
   "note": "partition for every arithmetic; groups are exactly the terminations at one point over the reals"
  },
  {
   "property": "C76",
   "status": "proved",
   "theorems": [
    "C76_termination",
    "C76_own_entry",
    "C76_in_order",
    "C76_swapped_refuted"
   ],
   "note": "calls made for each row; own entry exactly in conductor order; a two-node document with the source on the wrong node"
  },
  {
   "property": "C77",
   "status": "proved",
   "theorems": [
    "C77_missing",
    "C77_first",
    "C77_document"
   ],
   "note": "line level and document level"
  },
  {
   "property": "C78",
   "status": "proved",
   "theorems": [
    "C78_unknown",
    "C78_unknown_raises",
    "C78_known",
    "C78_missing_parameter"
   ],
   "note": "all type strings; parameters are looked up by name when the function is called"
  },
  {
   "property": "C79",
   "status": "proved",
   "theorems": [
    "C79_arrays",
    "C79_line",
    "C79_bundle",
    "C79_line_replaces",
    "C79_bundle_replaces",
    "C79_line_empty",
    "C79_bundle_end",
    "C79_accepted",
    "C79_superposition_refuted",
    "C79_last_node_refuted"
   ],
   "note": "Any arithmetic and quadrature for what is stored and replaced; refutations of superposition and of the last node's position over the reals."
  },
  {
   "property": "C80",
   "status": "proved",
   "theorems": [
    "C80_field_at_construction",
    "C80_blind"
   ],
   "note": "Field fixed at construction for every history; the networks' part of a step is blind to the bundles."
  },
  {
   "property": "C81",
   "status": "proved",
   "theorems": [
    "C81_other_pole_counts_raise",
    "C81_one_pole_per_cell"
   ],
   "note": "any arithmetic"
  },
  {
   "property": "C82",
   "status": "proved",
   "theorems": [
    "C82_shape",
    "C82_negative_before_start"
   ],
   "note": "real numbers"
  },
  {
   "property": "C83",
   "status": "proved",
   "theorems": [
    "C83_pole_counts_clash"
   ],
   "note": "any arithmetic"
  },
  {
   "property": "C84",
   "status": "proved",
   "theorems": [
    "C84_run_never_raises",
    "C84_single_conductor_line",
    "C84_coupled_lines"
   ],
   "note": "for several conductors the eigenvalues LAPACK returns for L*C are assumed to be eigenvalues (real_eigen)"
  },
  {
   "property": "C85",
   "status": "proved",
   "theorems": [
    "C85_connectors_keep_the_first_step"
   ],
   "note": "real arithmetic"
  },
  {
   "property": "C86",
   "status": "proved",
   "theorems": [
    "C86_memory_counted_q_times"
   ],
   "note": "real arithmetic"
  },
  {
   "property": "C87",
   "status": "proved",
   "theorems": [
    "C87_passive_connectors_never_raise"
   ],
   "note": "real arithmetic; LAPACK assumed complete"
  },
  {
   "property": "C88",
   "status": "proved",
   "theorems": [
    "C88_never_raises",
    "C88_calls_accepted"
   ],
   "note": "With a LAPACK that finds a solution when there is one."
  },
  {
   "property": "C89",
   "status": "proved",
   "theorems": [
    "C89_never_raises",
    "C89_bundles"
   ],
   "note": "With a LAPACK that finds a solution when there is one."
  },
  {
   "property": "C90",
   "status": "proved",
   "theorems": [
    "C90_energy"
   ],
   "note": "Parseval for the centred DFT of any length"
  },
  {
   "property": "C91",
   "status": "proved",
   "theorems": [
    "C91_not_read",
    "C91_raises",
    "C91_none"
   ],
   "note": "every document"
  },
  {
   "property": "C92",
   "status": "proved",
   "theorems": [
    "C92_termination",
    "C92_junction"
   ],
   "note": "every termination and junction that is accepted"
  },
  {
   "property": "C93",
   "status": "proved",
   "theorems": [
    "C93_one_node",
    "C93_several_nodes",
    "C93_termination"
   ],
   "note": "rows and whole terminations"
  },
  {
   "property": "C94",
   "status": "proved",
   "theorems": [
    "C94_shorts",
    "C94_resistors"
   ],
   "note": "over the reals (0 + 0 = 0)"
  },
  {
   "property": "C95",
   "status": "proved",
   "theorems": [
    "C95_parsed",
    "C95_run"
   ],
   "note": "every document and set order"
  },
  {
   "property": "C96",
   "status": "proved",
   "theorems": [
    "C96_run",
    "C96_parse_and_run"
   ],
   "note": "law-free; the only condition is that comparisons find 0 equal to 0"
  },
  {
   "property": "C97",
   "status": "proved",
   "theorems": [
    "C97_continues",
    "C97_keeps_step",
    "C97_rows",
    "C97_repeat_refuted"
   ],
   "note": "C97_repeat_refuted: two documents whose second run differs from the first, or raises"
  },
  {
   "property": "C98",
   "status": "proved",
   "theorems": [
    "C98_field",
    "C98_replaces",
    "C98_local",
    "C98_unknown"
   ],
   "note": "law-free; SpecRun.same_but_outer_fields says what may differ beforehand"
  },
  {
   "property": "C99",
   "status": "proved",
   "theorems": [
    "C99_RC",
    "C99_RL",
    "C99_RL_dc",
    "C99_RL_series",
    "C99_RL_series_power",
    "C99_passive",
    "C99_resonance"
   ],
   "note": "over the reals, one frequency at a time"
  }
 ]
}