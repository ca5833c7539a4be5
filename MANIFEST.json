{
 "claims": [
  {
   "property": "C01",
   "status": "proved",
   "theorems": [
    "C01_accepted_counts",
    "C01_suggested_counts",
    "C01_small_suggestion_refuted"
   ],
   "note": "Below 6 processes the suggested lower count is 0, which is not acceptable (extra refutation)."
  },
  {
   "property": "C02",
   "status": "proved",
   "theorems": [
    "C02_rank_tile_bijection"
   ],
   "note": ""
  },
  {
   "property": "C03",
   "status": "proved",
   "theorems": [
    "C03_neighbour_graph"
   ],
   "note": ""
  },
  {
   "property": "C04",
   "status": "proved",
   "theorems": [
    "C04_shared_edge"
   ],
   "note": ""
  },
  {
   "property": "C05",
   "status": "proved",
   "theorems": [
    "C05_scalar_exchange",
    "C05_scalar_exchange_3d"
   ],
   "note": ""
  },
  {
   "property": "C06",
   "status": "proved",
   "theorems": [
    "C06_tangent_is_derivative",
    "C06_components_unique",
    "C06_contravariant_conversion",
    "C06_inside_panel"
   ],
   "note": ""
  },
  {
   "property": "C07",
   "status": "partial",
   "theorems": [
    "C07_covariant_conversion_partial",
    "C07_covariant_refuted"
   ],
   "note": "23 of the 24 panel edges are proved; the entry for panel 2 south is wrong in the code, with a proved counterexample."
  },
  {
   "property": "C08",
   "status": "proved",
   "theorems": [
    "C08_contravariant_exchange",
    "C08_covariant_exchange_partial",
    "C08_covariant_exchange_refuted"
   ],
   "note": "The property is about contravariant components and is proved in full; the covariant analogue holds except where C07 fails."
  },
  {
   "property": "C09",
   "status": "proved",
   "theorems": [
    "C09_base_shape",
    "C09_succeeds_iff",
    "C09_documented_exception_refuted"
   ],
   "note": "Extra refutation: the exception raised for too small arrays is IndexError, not the documented ValueError."
  },
  {
   "property": "C10",
   "status": "proved",
   "theorems": [
    "C10_distribute_gather",
    "C10_gather_distribute",
    "C10_gathered_entry",
    "C10_distribute_rejects",
    "C10_gather_1d",
    "C10_gather_1d_complete_refuted"
   ],
   "note": "Extra: 1-D fields lose data when a panel has 4 or more tiles."
  },
  {
   "property": "C11",
   "status": "proved",
   "theorems": [
    "C11_outcome_unique",
    "C11_body_completes",
    "C11_body_raises",
    "C11_one_collective",
    "C11_private_value_refuted",
    "C11_do_once_returns",
    "C11_do_once_raises",
    "C11_do_once_sequence"
   ],
   "note": "Bodies are assumed not to use the context communicator themselves and not to return an instance of the private failure class (refuted otherwise)."
  },
  {
   "property": "C12",
   "status": "proved",
   "theorems": [
    "C12_multiple_processes",
    "C12_everybody_raises_refuted"
   ],
   "note": "Extra refutation: active ranks that did not fail go on when another one fails."
  },
  {
   "property": "C13",
   "status": "proved",
   "theorems": [
    "C13_nan_check"
   ],
   "note": ""
  },
  {
   "property": "C14",
   "status": "proved",
   "theorems": [
    "C14_values_in_range",
    "C14_read",
    "C14_bad_default_rejected",
    "C14_range_makes_sense"
   ],
   "note": ""
  },
  {
   "property": "C15",
   "status": "proved",
   "theorems": [
    "C15_meaning",
    "C15_failure",
    "C15_unique",
    "C15_shipped_schema_resolved",
    "C15_post_configuration",
    "C15_post_configuration_first",
    "C15_sections",
    "C15_shipped_no_attribute_error",
    "C15_accepted_options_suffice_refuted"
   ],
   "note": "Extra refutation: an empty exp_smoothe_spectral_radii list is accepted by the schema and then raises IndexError."
  },
  {
   "property": "C16",
   "status": "proved",
   "theorems": [
    "C16_same_fields",
    "C16_dependency_first",
    "C16_dependencies_found",
    "C16_chains_refuted"
   ],
   "note": "Dependency_first holds for dependencies on independent fields; chains of dependencies are refuted."
  },
  {
   "property": "C17",
   "status": "proved",
   "theorems": [
    "C17_value",
    "C17_raises",
    "C17_reason"
   ],
   "note": ""
  },
  {
   "property": "C18",
   "status": "proved",
   "theorems": [
    "C18_terminates",
    "C18_24_bits",
    "C18_encode_decode",
    "C18_decode_encode",
    "C18_decode_range",
    "C18_idempotent",
    "C18_periodic",
    "C18_documented_interval_refuted",
    "C18_float_terminates_refuted"
   ],
   "note": "Over exact reals. Extra refutations: the documented interval, and termination in binary64."
  },
  {
   "property": "C19",
   "status": "proved",
   "theorems": [
    "C19_announced",
    "C19_complete",
    "C19_with_failures",
    "C19_states",
    "C19_float_count_refuted",
    "C19_zero_dt_refuted"
   ],
   "note": "Over exact reals. Extra refutations: with binary64 times the announced number of steps can be wrong; dt = 0 passes the schema and the constructor raises."
  },
  {
   "property": "C20",
   "status": "partial",
   "theorems": [
    "C20_second_run_does_nothing",
    "C20_rerun_refuted"
   ],
   "note": "The property is false of the code: the negation is proved for every simulation that makes a step."
  },
  {
   "property": "C21",
   "status": "proved",
   "theorems": [
    "C21_restart",
    "C21_fallback",
    "C21_float_restart_refuted",
    "C21_multistep_restart_refuted"
   ],
   "note": "Proved for one-step integrators over exact reals; refuted for multistep integrators and in binary64."
  },
  {
   "property": "C22",
   "status": "proved",
   "theorems": [
    "C22_output_schedule"
   ],
   "note": ""
  },
  {
   "property": "C23",
   "status": "partial",
   "theorems": [
    "C23_output_independent",
    "C23_netcdf_no_topography",
    "C23_netcdf_refuted"
   ],
   "note": "Refuted for the netCDF writer with topography, which adds the surface height to the state in place."
  },
  {
   "property": "C24",
   "status": "partial",
   "theorems": [
    "C24_listed_counts_work",
    "C24_exact",
    "C24_others_refused",
    "C24_all_listed_refuted"
   ],
   "note": "Extra refutation: the usable count with one element per tile side is not listed."
  },
  {
   "property": "C25",
   "status": "partial",
   "theorems": [
    "C25_names_differ",
    "C25_read_back",
    "C25_one_line",
    "C25_text_refuted",
    "C25_version_checked_refuted"
   ],
   "note": "The state and all non-blank lines of the configuration text are recovered; the exact text is not (newlines come back doubled) and the version is not checked."
  },
  {
   "property": "C26",
   "status": "partial",
   "theorems": [
    "C26_short_durations_partial",
    "C26_long_durations_refuted",
    "C26_integer_clock_refuted"
   ],
   "note": "Holds up to 1000 s only; above, the negation is proved."
  },
  {
   "property": "C27",
   "status": "proved",
   "theorems": [
    "C27_one_id_per_run",
    "C27_steps_in_order",
    "C27_run_id_is_first_entry",
    "C27_rows_refer_to_params",
    "C27_calls_complete",
    "C27_write_adds_a_row"
   ],
   "note": ""
  },
  {
   "property": "C28",
   "status": "partial",
   "theorems": [
    "C28_history",
    "C28_any_dt",
    "C28_drift_bound",
    "C28_small_change_refuted",
    "C28_epi_constructor",
    "C28_epi_stiff_constructor",
    "C28_affine"
   ],
   "note": "Holds for changes of dt above the comparison tolerance 1e-10 (C28_history) and, for any dt, up to the drift stated by C28_any_dt/C28_drift_bound; smaller changes keep the history (refuted)."
  },
  {
   "property": "C29",
   "status": "partial",
   "theorems": [
    "C29_order_conditions",
    "C29_epi_tables",
    "C29_epi_tables_sharp",
    "C29_supported_orders",
    "C29_stiff_sign",
    "C29_stiff_refuted",
    "C29_stiff_low_orders"
   ],
   "note": "alpha_coeff and the fixed tables satisfy the conditions; EpiStiff passes nodes of the wrong sign for every order >= 4 (refuted)."
  },
  {
   "property": "C30",
   "status": "partial",
   "theorems": [
    "C30_tableaux",
    "C30_accepted",
    "C30_trees",
    "C30_trees_partial",
    "C30_step",
    "C30_step_decimal",
    "C30_dp87_refuted",
    "C30_names_refuted",
    "C30_m43_refuted"
   ],
   "note": "The literals of the source are taken as exact rationals. Row sums, sums of weights, triangularity: all nine methods. Order conditions over all rooted trees up to the declared order: the five methods with rational coefficients exactly, KC3(2) up to 1e-16 (error weights 1e-7, they are given with 8 digits); F10(8) and F14(12) only up to 6 and 5 nodes (missing: larger trees), but their declared orders are proved for the step on the linear problem with polynomial forcing that exode solves. Refuted: DP8(7) propagates the order-7 weights although order 8 is declared; DP5(4) is rejected by the validation of its own class (A is 6x5); the default method of exode does not exist; M4(3) is not of order 5 on homogeneous linear problems."
  },
  {
   "property": "C31",
   "status": "partial",
   "theorems": [
    "C31_step",
    "C31_terminates",
    "C31_attempts",
    "C31_first_stage_partial",
    "C31_first_stage_refuted",
    "C31_controllers",
    "C31_tuple_controller_refuted"
   ],
   "note": "Step size control is proved; for methods whose last stage is not at the end of the step the next first stage is taken at the wrong time (refuted), and a controller given as a tuple is ignored (refuted)."
  },
  {
   "property": "C32",
   "status": "partial",
   "theorems": [
    "C32_euler",
    "C32_tvdrk3",
    "C32_tvdrk3_tableau",
    "C32_crank_nicolson",
    "C32_backward_euler",
    "C32_imex2",
    "C32_ros2",
    "C32_rosexp2",
    "C32_partrosexp2",
    "C32_rosexp2_configured",
    "C32_bdf2_partial",
    "C32_bdf2_lag",
    "C32_bdf2_start_refuted",
    "C32_bdf2_change_refuted",
    "C32_lie_calls",
    "C32_strang_calls",
    "C32_strang_one_step",
    "C32_os22_calls",
    "C32_lie_order",
    "C32_strang_order",
    "C32_os22_order"
   ],
   "note": "Proved for every method except BDF2, whose start-up covers half a step and whose coefficients ignore a change of dt (both refuted); C32_bdf2_partial gives its order from a correct previous value."
  },
  {
   "property": "C33",
   "status": "partial",
   "theorems": [
    "C33_substeps",
    "C33_basis",
    "C33_progress",
    "C33_outputs_partial",
    "C33_outputs_refuted",
    "C33_repeated_refuted",
    "C33_zero_estimate_refuted",
    "C33_float_refuted"
   ],
   "note": "Exact reals, every sequence of error estimates and breakdowns. Output times: proved for positive increasing ones; negative ones and a repeated final time are refuted, as is the double precision version (IndexError when the last substep rounds past the end)."
  },
  {
   "property": "C34",
   "status": "partial",
   "theorems": [
    "C34_system",
    "C34_refuted",
    "C34_partial",
    "C34_phi0_refuted"
   ],
   "note": "The exponents used in later substeps are two too large (refuted for p >= 2); right in the first substep and for p = 1."
  },
  {
   "property": "C35",
   "status": "proved",
   "theorems": [
    "C35_flag",
    "C35_zero_rhs",
    "C35_givens"
   ],
   "note": "Exact reals, sequential. The stagnation test (largest relative change of the solution below 1e-12) is a parameter: it is made before the test of convergence, so that -1 may come with a residual below the tolerance."
  },
  {
   "property": "C36",
   "status": "proved",
   "theorems": [
    "C36_finite_difference_affine",
    "C36_complex_affine",
    "C36_complex_polynomial",
    "C36_complex_quadratic",
    "C36_finite_difference_polynomial"
   ],
   "note": ""
  },
  {
   "property": "C37",
   "status": "partial",
   "theorems": [
    "C37_pullback",
    "C37_inverse",
    "C37_area_partial",
    "C37_area_refuted",
    "C37_panel_area"
   ],
   "note": "Metrics are proved; the declared area element is half of the right one everywhere (refuted), so the area of the whole sphere comes out as 2 pi R^2."
  },
  {
   "property": "C38",
   "status": "proved",
   "theorems": [
    "C38_levi_civita",
    "C38_equal_sizes",
    "C38_rotation",
    "C38_coriolis"
   ],
   "note": ""
  },
  {
   "property": "C39",
   "status": "partial",
   "theorems": [
    "C39_same_vector",
    "C39_round_trip",
    "C39_round_trip_back",
    "C39_contra2wind_3d",
    "C39_round_trip_3d_partial",
    "C39_round_trip_3d_refuted"
   ],
   "note": "Two dimensions are proved. In three dimensions the conversion to winds is right and the round trip holds without topography; over any slope the round trip fails (refuted)."
  },
  {
   "property": "C40",
   "status": "proved",
   "theorems": [
    "C40_cover_once",
    "C40_decomposition",
    "C40_between",
    "C40_on_sphere",
    "C40_one_cube",
    "C40_edges",
    "C40_covered"
   ],
   "note": "Over exact reals. Rotations that put the centre of a turned panel exactly at a pole are excluded (no double is an exact multiple of pi/2), and tilts below 1e-13 are covered up to 2e-12 r."
  },
  {
   "property": "C41",
   "status": "partial",
   "theorems": [
    "C41_to_elements_2d",
    "C41_to_elements_2d_four",
    "C41_to_block_2d",
    "C41_to_block_cartesian",
    "C41_to_elements_3d",
    "C41_to_block_3d",
    "C41_to_elements_floor",
    "C41_round_trip_2d",
    "C41_round_trip_2d_back",
    "C41_round_trip_3d",
    "C41_round_trip_3d_back",
    "C41_bad_shapes_2d",
    "C41_bad_shapes",
    "C41_interfaces_i_2d",
    "C41_interfaces_j_2d",
    "C41_edges_i",
    "C41_edges_j",
    "C41_one_element_refuted",
    "C41_interfaces_i_3d",
    "C41_interfaces_j_3d",
    "C41_interfaces_k_3d",
    "C41_interfaces_i_floor",
    "C41_interfaces_j_floor",
    "C41_floor",
    "C41_columns",
    "C41_columns_k",
    "C41_floor_interfaces",
    "C41_columns_interfaces",
    "C41_heights",
    "C41_coordinates"
   ],
   "note": "All sizes, except that the two-dimensional interface conversion loses an axis with one element per tile side, which erases longitudes and latitudes (refuted)."
  },
  {
   "property": "C42",
   "status": "proved",
   "theorems": [
    "C42_exact",
    "C42_points",
    "C42_roots",
    "C42_others"
   ],
   "note": "Rules with more than five points come from scipy, which is not modelled."
  },
  {
   "property": "C43",
   "status": "proved",
   "theorems": [
    "C43_row_reduce",
    "C43_inverse",
    "C43_singular"
   ],
   "note": ""
  },
  {
   "property": "C44",
   "status": "proved",
   "theorems": [
    "C44_interpolation",
    "C44_sum",
    "C44_derivative"
   ],
   "note": ""
  },
  {
   "property": "C45",
   "status": "proved",
   "theorems": [
    "C45_linear",
    "C45_sum",
    "C45_two",
    "C45_convex",
    "C45_one_point",
    "C45_error"
   ],
   "note": ""
  },
  {
   "property": "C46",
   "status": "proved",
   "theorems": [
    "C46_shallow_water",
    "C46_plane_x1",
    "C46_plane_x2",
    "C46_plane_compiled_x1",
    "C46_plane_compiled_x2",
    "C46_finite_volumes",
    "C46_sphere",
    "C46_ground",
    "C46_lid"
   ],
   "note": ""
  },
  {
   "property": "C47",
   "status": "partial",
   "theorems": [
    "C47_shallow_water",
    "C47_shallow_water_points",
    "C47_plane_points",
    "C47_plane_partial",
    "C47_plane_refuted",
    "C47_plane_python_x1_partial",
    "C47_plane_python_x2_partial",
    "C47_finite_volumes",
    "C47_upwind",
    "C47_sphere",
    "C47_sphere_points",
    "C47_sphere_parts",
    "C47_sphere_parts_points"
   ],
   "note": "Proved for shallow water, the cubed sphere and the finite volumes. For Euler on a plane the interface flux of the normal momentum lacks its advective term (refuted), all else proved."
  },
  {
   "property": "C48",
   "status": "partial",
   "theorems": [
    "C48_refuted",
    "C48_sides_refuted",
    "C48_partial"
   ],
   "note": "The components are exchanged and the derivative lacks the values on the sides of the elements (both refuted); the partial theorem says what is returned for winds that vanish on the sides."
  },
  {
   "property": "C49",
   "status": "proved",
   "theorems": [
    "C49_levels_fv",
    "C49_levels_dg",
    "C49_parameters",
    "C49_v_cycle",
    "C49_num_levels",
    "C49_visits"
   ],
   "note": "The extra level of a pure finite volume preconditioner (fv_only) is not used by a pass and not covered. Multigrid.solve refers to attributes that do not exist and is not modelled. apply never passes gamma: only V-cycles are reachable from it."
  },
  {
   "property": "C50",
   "status": "partial",
   "theorems": [
    "C50_partial",
    "C50_correction",
    "C50_refuted"
   ],
   "note": "A guess that already solves the system is replaced by a vector of NaN (refuted: comparisons with NaN do not reject it). When the result consists of numbers the residual does not increase."
  },
  {
   "property": "C51",
   "status": "partial",
   "theorems": [
    "C51_refuted",
    "C51_assignment_partial",
    "C51_loads",
    "C51_no_device",
    "C51_requested"
   ],
   "note": "Negative ids pass the filter (refuted); everything holds for lists without negative ids. cupy itself is not modelled: the id handed to it is."
  },
  {
   "property": "C52",
   "status": "partial",
   "theorems": [
    "C52_refuted",
    "C52_growth_refuted",
    "C52_update_partial",
    "C52_size_partial"
   ],
   "note": "The bound is exceeded: the approximate solution is appended after the truncation, and a solve that converges at once truncates nothing, so that a sequence of such solves grows the space by one pair each (refuted). Within a solve the newest pairs are kept; a solve leaves at most one pair more than the bound or than it found."
  },
  {
   "property": "C53",
   "status": "partial",
   "theorems": [
    "C53_time_stamps",
    "C53_last_stamp_refuted"
   ],
   "note": "Exact stamps are proved; the property is false for a shortened last step."
  },
  {
   "property": "C54",
   "status": "partial",
   "theorems": [
    "C54_silent_failure_refuted",
    "C54_later_calls_refuted",
    "C54_finished"
   ],
   "note": "Only finished integrations return the value at the end; failures are silent and persist (refuted)."
  },
  {
   "property": "C55",
   "status": "partial",
   "theorems": [
    "C55_pullback",
    "C55_inverse",
    "C55_volume",
    "C55_interface_partial",
    "C55_interface_refuted",
    "C55_interfaces",
    "C55_interfaces_kept"
   ],
   "note": "The metric is proved; the averaging of slopes at interfaces changes equal values wherever X Y is not 0 (refuted)."
  },
  {
   "property": "C56",
   "status": "partial",
   "theorems": [
    "C56_rotation_partial",
    "C56_rotation_refuted"
   ],
   "note": "Two of the three columns are proved; the column of the second coordinate is wrong everywhere off the equator (refuted)."
  },
  {
   "property": "C57",
   "status": "proved",
   "theorems": [
    "C57_system",
    "C57_exact"
   ],
   "note": ""
  },
  {
   "property": "C58",
   "status": "proved",
   "theorems": [
    "C58_extrapolation",
    "C58_correction",
    "C58_extrap_x",
    "C58_extrap_y",
    "C58_extrap_z",
    "C58_derivative_x",
    "C58_derivative_y",
    "C58_derivative_z",
    "C58_extrap_2d",
    "C58_derivative_x_2d",
    "C58_derivative_y_2d"
   ],
   "note": ""
  },
  {
   "property": "C59",
   "status": "partial",
   "theorems": [
    "C59_modes",
    "C59_low_degree",
    "C59_factors",
    "C59_factors_3d",
    "C59_filter_3d",
    "C59_high_filter",
    "C59_high_filter_3d",
    "C59_high_filter_3d_top",
    "C59_remesh_partial",
    "C59_remesh_half",
    "C59_remesh_drop",
    "C59_remesh_constant_refuted"
   ],
   "note": "Filters are proved. A change of order halves the highest common mode, which for order one is the constant (refuted)."
  },
  {
   "property": "C60",
   "status": "proved",
   "theorems": [
    "C60_check",
    "C60_passes",
    "C60_passes_filtered"
   ],
   "note": "Exact arithmetic: the check compares doubles for equality."
  },
  {
   "property": "C61",
   "status": "proved",
   "theorems": [
    "C61_points",
    "C61_faces_x1",
    "C61_faces_x2"
   ],
   "note": ""
  },
  {
   "property": "C62",
   "status": "proved",
   "theorems": [
    "C62_shallow_water",
    "C62_plane",
    "C62_plane_momentum",
    "C62_euler_sphere"
   ],
   "note": "Real arithmetic. On the cubed sphere mass and the density of potential temperature of the Euler equations; the slopes of the layers and the Christoffel symbols are any arrays, and in a deep atmosphere the heights at the edges of the tiles are those of one function of the place (the code computes them from the place). The thickness of the layers and the radius are not zero."
  },
  {
   "property": "C63",
   "status": "proved",
   "theorems": [
    "C63_energy",
    "C63_positive",
    "C63_enstrophy"
   ],
   "note": "With the vorticity as the code computes it, see C48."
  },
  {
   "property": "C64",
   "status": "proved",
   "theorems": [
    "C64_formula",
    "C64_compiled"
   ],
   "note": ""
  },
  {
   "property": "C65",
   "status": "proved",
   "theorems": [
    "C65_source",
    "C65_mass",
    "C65_points"
   ],
   "note": ""
  },
  {
   "property": "C66",
   "status": "proved",
   "theorems": [
    "C66_rest"
   ],
   "note": ""
  },
  {
   "property": "C67",
   "status": "proved",
   "theorems": [
    "C67_rhs",
    "C67_steps",
    "C67_integral"
   ],
   "note": "Exact reals. States, topographies and rotations of the tiles are those of the panels cut (SwCutSpec). Integrators: euler1 and tvdrk3."
  },
  {
   "property": "C68",
   "status": "partial",
   "theorems": [
    "C68_monotone",
    "C68_converged",
    "C68_iterations",
    "C68_refuted",
    "C68_flag_refuted"
   ],
   "note": "Proved when the recycled products belong to the same operator (or discard_C is set); pairs from another operator can make the solution worse than the initial guess, for any number of passes (refuted), and the flag is always 0 (refuted). scipy qr, svd, lstsq enter as arguments; QR and SVD are assumed to return what they promise, nothing is assumed of lstsq."
  },
  {
   "property": "C69",
   "status": "partial",
   "theorems": [
    "C69_monotone",
    "C69_optimal",
    "C69_returns_partial",
    "C69_refuted"
   ],
   "note": "An initial guess that is exact makes the solver raise (refuted). Otherwise proved, in exact arithmetic, for linear injective operators and preconditioners."
  },
  {
   "property": "C70",
   "status": "partial",
   "theorems": [
    "C70_keeps",
    "C70_linear",
    "C70_error",
    "C70_smoothers",
    "C70_ark3_partial",
    "C70_ark3_refuted"
   ],
   "note": "Proved for the pass and for erk1 and erk3. ark3 smooths another system (the time step is applied twice to the Jacobian), except for dt = 1 (refuted)."
  },
  {
   "property": "C71",
   "status": "partial",
   "theorems": [
    "C71_substeps",
    "C71_basis",
    "C71_outputs_partial",
    "C71_control",
    "C71_endless_refuted",
    "C71_zero_estimate_refuted"
   ],
   "note": "Substeps and sizes: proved for every outcome of the linear algebra. Rows at the output times: only for positive increasing times (negative ones are treated as in C33). Termination is refuted with a rotation of the plane: when halving the substep does not make the estimate smaller the exponent has the wrong sign and every pass is rejected with the same substep. An estimate of zero without breakdown raises."
  },
  {
   "property": "C72",
   "status": "partial",
   "theorems": [
    "C72_krylov",
    "C72_defect",
    "C72_breakdown_refuted"
   ],
   "note": "Exact arithmetic; every matrix exponential that satisfies the power series is covered. The reproduction of polynomials and the exactness of the compressed exponential are proved for every accepted substep. The second half is refuted: when the basis is exhausted the last column of the Hessenberg matrix has not been stored, the result is wrong and the error is reported as zero. Without breakdown the error estimate is the integral of the defect of the approximation over the substep, and a substep is accepted exactly when it is within the tolerance; a bound on the error itself is not given."
  },
  {
   "property": "C73",
   "status": "partial",
   "theorems": [
    "C73_kiops_counts",
    "C73_pmex_counts",
    "C73_kiops_added",
    "C73_pmex_added",
    "C73_kiops_error",
    "C73_pmex_error",
    "C73_pmex_size",
    "C73_kiops_size_refuted"
   ],
   "note": "One exponential is counted for each pass; those for output times inside of a substep are not counted. kiops returns the size proposed for a substep that does not take place (refuted); pmex returns that of the last substep."
  },
  {
   "property": "C74",
   "status": "partial",
   "theorems": [
    "C74_krylov_partial",
    "C74_control"
   ],
   "note": "Exact arithmetic; every matrix exponential that satisfies the power series is covered. Missing: substeps after the first that follow a breakdown with at least iop but fewer than mmax vectors. The matrix H is not cleared between substeps and the entry H[0, h] = 1 set for the error estimate is left behind by such a breakdown; a later substep with more vectors would use it."
  },
  {
   "property": "C75",
   "status": "proved",
   "theorems": [
    "C75_steady",
    "C75_forcing",
    "C75_transport",
    "C75_mountain",
    "C75_wave",
    "C75_depth"
   ],
   "note": "Exact arithmetic, at every point; the derivatives are exact, not those of the discretisation (those are in C60 ff.). Off the axis of rotation, where the longitude is not defined and the code divides by cos lat. The shallow water cases 0, 8 and 9 are not modelled. Case 10 cannot be started at this commit (the formulas are correct, the shapes of the arrays are not, see C77)."
  },
  {
   "property": "C76",
   "status": "partial",
   "theorems": [
    "C76_hydrostatic",
    "C76_wind",
    "C76_gravity_wave",
    "C76_advection",
    "C76_tracers",
    "C76_tracer_shapes",
    "C76_sponge",
    "C76_acoustic",
    "C76_plane_mountain",
    "C76_bubble_core_partial",
    "C76_bubble_pressure",
    "C76_bubble_refuted"
   ],
   "note": "Exact arithmetic, at every point, shallow atmosphere (the code itself notes that the cases 21 and 22 are not balanced on a deep atmosphere). Partial because the bubble on the vertical plane is not hydrostatic outside of its core: the Exner pressure is computed with the perturbed potential temperature as if it were uniform; C76_bubble_pressure says by how much."
  },
  {
   "property": "C77",
   "status": "partial",
   "theorems": [
    "C77_starts_partial",
    "C77_starts_refuted",
    "C77_unknown",
    "C77_unknown_plane_refuted"
   ],
   "note": "Shapes, calls and names only: an array is its shape. Partial because nine of the documented cases cannot be started and two have the wrong layout (C77_starts_refuted, for every grid). For the cases 21 and 22 the two copies of the mountain, computed in two layouts, are assumed to agree to the last bit, as the code demands."
  },
  {
   "property": "C78",
   "status": "proved",
   "theorems": [
    "C78_nodes",
    "C78_optimal",
    "C78_requested",
    "C78_linear",
    "C78_forced",
    "C78_quadrature"
   ],
   "note": "Exact reals; the solver of phi functions, the roots of a polynomial and the product with the Jacobian are taken to be without error (the first two as hypotheses, shown to be satisfiable). The time is the first unknown, because the integrator only sees autonomous problems."
  },
  {
   "property": "C79",
   "status": "partial",
   "theorems": [
    "C79_found",
    "C79_ends",
    "C79_returned_refuted",
    "C79_solution",
    "C79_jacobian",
    "C79_affine",
    "C79_armijo",
    "C79_search",
    "C79_tolerances"
   ],
   "note": "Exact reals; the linear solver and the scalar line search of scipy are arbitrary. Refuted: that every returned state satisfies the tolerance (when the passes are used up the last state is returned and only a message is printed; no caller looks at the residuals)."
  },
  {
   "property": "C80",
   "status": "proved",
   "theorems": [
    "C80_backward_euler",
    "C80_sdirk",
    "C80_sdirk_order",
    "C80_crank_nicolson",
    "C80_crank_nicolson_affine",
    "C80_ros2",
    "C80_bdf2",
    "C80_imex2",
    "C80_damping",
    "C80_tvd"
   ],
   "note": "Exact reals. The nonlinear and linear solvers are arbitrary; that they solved the equations of the step is a hypothesis (for backward Euler up to a residual). Order and damping: affine right-hand sides and the complex test equation."
  },
  {
   "property": "C81",
   "status": "partial",
   "theorems": [
    "C81_matrix",
    "C81_columns",
    "C81_processes",
    "C81_local",
    "C81_blocks",
    "C81_inverse",
    "C81_stale_refuted",
    "C81_restart_refuted",
    "C81_archive",
    "C81_coordinates_refuted",
    "C81_sets",
    "C81_empty_refuted"
   ],
   "note": "Exact reals; all processes have the same local size, as the tiles do. Assembly and blocks: proved. Refuted: matrices in coordinate form are saved with their rows in a tuple and cannot be read back; a set without matrices cannot be stored; the preconditioner takes the files of an earlier run for any operator, and when only some processes find a file the others wait for ever in the operator. numpy, scipy and pickle are modelled by what they store."
  },
  {
   "property": "C82",
   "status": "partial",
   "theorems": [
    "C82_basis_partial",
    "C82_polynomials",
    "C82_breakdown",
    "C82_failure",
    "C82_shapes",
    "C82_sizes",
    "C82_same",
    "C82_default",
    "C82_incomplete_partial",
    "C82_processes_refuted",
    "C82_last_norm_refuted",
    "C82_nest_refuted",
    "C82_compact",
    "C82_inverse",
    "C82_triangular",
    "C82_triangular_refuted",
    "C82_rest_refuted",
    "C82_rest",
    "C82_dcgs2_first",
    "C82_dcgs2_refuted"
   ],
   "note": "Exact reals. Proved on one process for all files but dcgs2 and on every number of processes for pmex, icwy_ne and cwy_ne (icwy_neiop: the basis of kiops with iop = 2). Refuted: the reduction counts the augmented entries once for each process, so that icwy_1s and the ne1s files give results depending on the number of processes, and pmex_1s, cwy_1s and kiops_nest lose the orthonormality; the 1s files divide by zero when the space is invariant; dcgs2 does not normalise its first vector. For basis vectors that are not orthogonal: the cwy files are the modified Gram-Schmidt process, the icwy files are up to second order, and pmex, pmex_1s and pmex_ne1s are not, the lower triangular system being solved as an upper one. The matrix exponential and the step control are those of C71 to C74."
  },
  {
   "property": "C83",
   "status": "partial",
   "theorems": [
    "C83_errors",
    "C83_scale",
    "C83_processes",
    "C83_schedule",
    "C83_changes",
    "C83_conserved",
    "C83_frequency",
    "C83_time",
    "C83_last_refuted",
    "C83_restart",
    "C83_restart_refuted"
   ],
   "note": "Exact reals; energy, enstrophy and analytic depth are arbitrary fields. Refuted: the last step is shortened by changing config.dt, and the analytic depth is evaluated at the number of the step times that dt, which is too early; a run that is started again reports changes relative to its own first report."
  },
  {
   "property": "C84",
   "status": "proved",
   "theorems": [
    "C84_slopes",
    "C84_terrain",
    "C84_terrain_steps",
    "C84_rhs",
    "C84_steps",
    "C84_integral"
   ],
   "note": "Exact reals. States, layers, Christoffel symbols and damping of the tiles are those of the panels cut (EulCutSpec); C84_slopes and C84_terrain prove that of layers and symbols from the terrain. Integrators: euler1 and tvdrk3."
  },
  {
   "property": "C85",
   "status": "proved",
   "theorems": [
    "C85_rest",
    "C85_mass",
    "C85_symbols"
   ],
   "note": "Exact reals; advection_only off. The radius and its derivative along eta are not zero at the points. What damping adds is left as it is."
  },
  {
   "property": "C86",
   "status": "proved",
   "theorems": [
    "C86_levels",
    "C86_thickness",
    "C86_slopes",
    "C86_level",
    "C86_metric",
    "C86_between_layers",
    "C86_side_thickness"
   ],
   "note": "Exact reals; points strictly inside the element (as the Gauss-Legendre points are) and distinct. The second layout of the same arrays (zbot_new) is not modelled. The polynomial is of the values on the points of the line and its two interfaces, which the caller supplies."
  },
  {
   "property": "C87",
   "status": "partial",
   "theorems": [
    "C87_fgmres",
    "C87_one",
    "C87_pmex",
    "C87_shallow",
    "C87_euler",
    "C87_newton",
    "C87_newton_default",
    "C87_newton_one",
    "C87_steps_one",
    "C87_srerk_one",
    "C87_kiops",
    "C87_shallow_more",
    "C87_euler_more",
    "C87_refuted"
   ],
   "note": "Exact reals: sums over the processes do not depend on their order. Proved in full for pmex, kiops, EPI and SRERK; for newton_krylov and the implicit integrators with a given number of passes, and with the default number if solutions are announced before the smaller limit. For fgmres and ros2 the runs agree unless in one of them the processes get out of step, and C87_refuted shows that this happens: one process returns from the stagnation test of fgmres.py 260-266 while the other waits in the next allreduce. The preconditioner is any map that does the same on both decompositions. In EPI and SRERK the Jacobian is by finite differences. gcrot, which takes norms of the local entries only, is not covered."
  },
  {
   "property": "C88",
   "status": "proved",
   "theorems": [
    "C88_sum",
    "C88_depth",
    "C88_mass"
   ],
   "note": "Exact reals. The functions with the argument boundary_shape that their call of start_exchange_scalars lacks, and with the metric and coordinates in the layout they index. C88_mass: with topography, when the values at the two sides of the edges of tiles are those of one surface, as in C62; points of gauss_legendre, at most five."
  },
  {
   "property": "C89",
   "status": "proved",
   "theorems": [
    "C89_total",
    "C89_linear",
    "C89_upwind"
   ],
   "note": "Exact reals. The function with the argument boundary_shape that its call of start_exchange_scalars lacks, and with the metric and coordinates in the layout it indexes. C89_total: points of gauss_legendre, at most five."
  },
  {
   "property": "C90",
   "status": "partial",
   "theorems": [
    "C90_implicit",
    "C90_theta",
    "C90_acoustic",
    "C90_convective",
    "C90_euler",
    "C90_mean",
    "C90_periodic",
    "C90_periodic_refuted",
    "C90_volumes",
    "C90_volumes_uniform"
   ],
   "note": "Exact reals; points of gauss_legendre, at most five. The last sentence is false of the code: with xperiodic, rhs_bubble_convective takes the first column of elements for a copy of the last one, which it is not on the grid (C90_periodic_refuted); what it keeps is the mass of the other columns (C90_periodic)."
  },
  {
   "property": "C91",
   "status": "partial",
   "theorems": [
    "C91_create",
    "C91_order",
    "C91_refused",
    "C91_runs",
    "C91_partitioned",
    "C91_partitioned_refuted",
    "C91_discretization",
    "C91_discretization_refuted"
   ],
   "note": "Names of ASCII characters. The second sentence is false of the code: the partitioned methods never take a step (C91_partitioned), fv cannot be evaluated on the plane (C91_runs) and is ignored on the cubed sphere (C91_discretization). The constructors are modelled as far as they refuse an order; the test case is assumed to be one that starts (C77)."
  },
  {
   "property": "C92",
   "status": "partial",
   "theorems": [
    "C92_epi",
    "C92_srerk",
    "C92_refused",
    "C92_refuted",
    "C92_schema_refuted",
    "C92_stiff"
   ],
   "note": "Holds for the EPI methods (C92_epi). False for epi_stiff, srerk and rosexp2 (C92_refuted, C92_schema_refuted, C92_stiff). The solvers are represented by the names of the functions that are called; their arguments are not part of this model."
  }
 ]
}