{
 "claims": [
  {
   "property": "C01",
   "status": "proved",
   "theorems": [
    "C01_memory_safe",
    "C01_next_operation_safe",
    "C01_view_refuted"
   ],
   "note": "The view constructor over another vector's data is refuted by a concrete program (C01_view_refuted)."
  },
  {
   "property": "C02",
   "status": "proved",
   "theorems": [
    "C02_value_semantics"
   ],
   "note": ""
  },
  {
   "property": "C03",
   "status": "proved",
   "theorems": [
    "C03_storage_accounting",
    "C03_no_leak_without_overwrite",
    "C03_assignment_refuted"
   ],
   "note": "Exact count for every history; leak exhibited by C03_assignment_refuted."
  },
  {
   "property": "C04",
   "status": "proved",
   "theorems": [
    "C04_self_copy_refuted",
    "C04_self_move_refuted"
   ],
   "note": "The property a user would want (content kept) is refuted for every content."
  },
  {
   "property": "C05",
   "status": "proved",
   "theorems": [
    "C05_resize_owning",
    "C05_resize_refused",
    "C05_raw_and_moved_do_not_own"
   ],
   "note": ""
  },
  {
   "property": "C06",
   "status": "proved",
   "theorems": [
    "C06_front_and_const_back",
    "C06_back_is_front_refuted"
   ],
   "note": "Refuted for the non-const back(), proved for the other overloads."
  },
  {
   "property": "C07",
   "status": "proved",
   "theorems": [
    "C07_upper_bound_any_range",
    "C07_upper_bound_partitioned",
    "C07_upper_bound_sorted"
   ],
   "note": ""
  },
  {
   "property": "C08",
   "status": "proved",
   "theorems": [
    "C08_lin_grid",
    "C08_lin_grid_shape",
    "C08_lin_grid_invalid"
   ],
   "note": ""
  },
  {
   "property": "C09",
   "status": "proved",
   "theorems": [
    "C09_log_grid",
    "C09_log_grid_shape",
    "C09_log_grid_invalid",
    "C09_zero_minimum_refuted"
   ],
   "note": ""
  },
  {
   "property": "C10",
   "status": "proved",
   "theorems": [
    "C10_log_lin_log_grid",
    "C10_other_sizes_refuted"
   ],
   "note": ""
  },
  {
   "property": "C11",
   "status": "proved",
   "theorems": [
    "C11_poisson_quantile",
    "C11_poisson_monotone",
    "C11_large_mean_refuted"
   ],
   "note": ""
  },
  {
   "property": "C12",
   "status": "proved",
   "theorems": [
    "C12_poisson_terminates_ieee"
   ],
   "note": ""
  },
  {
   "property": "C13",
   "status": "proved",
   "theorems": [
    "C13_interp_linear",
    "C13_interpolant_unique"
   ],
   "note": ""
  },
  {
   "property": "C14",
   "status": "proved",
   "theorems": [
    "C14_interp_linear_equispaced"
   ],
   "note": ""
  },
  {
   "property": "C15",
   "status": "proved",
   "theorems": [
    "C15_last_coordinate_refuted",
    "C15_outside_is_out_of_bounds",
    "C15_equispaced_below_is_out_of_bounds"
   ],
   "note": "The claim is refuted for the last coordinate: the lookup reads one element past the end. The remaining cases (strictly outside) are characterised as well."
  },
  {
   "property": "C16",
   "status": "proved",
   "theorems": [
    "C16_bilinear",
    "C16_bilinear_equispaced",
    "C16_exact_at_nodes",
    "C16_between_bounds",
    "C16_exact_for_bilinear_data"
   ],
   "note": ""
  },
  {
   "property": "C17",
   "status": "proved",
   "theorems": [
    "C17_first_axis_clamped",
    "C17_first_axis",
    "C17_binary64_refuted"
   ],
   "note": "Holds in exact arithmetic; in binary64 a table and query exist for which the same code reads out of bounds (C17_binary64_refuted)."
  },
  {
   "property": "C18",
   "status": "proved",
   "theorems": [
    "C18_addressing",
    "C18_addressing_injective",
    "C18_large_table_refuted"
   ],
   "note": ""
  },
  {
   "property": "C19",
   "status": "proved",
   "theorems": [
    "C19_round_trip_1d",
    "C19_round_trip_2d"
   ],
   "note": ""
  },
  {
   "property": "C20",
   "status": "proved",
   "theorems": [
    "C20_truncated_1d_refuted",
    "C20_truncated_2d_refuted",
    "C20_unopened_file_refuted",
    "C20_uninitialised_refuted"
   ],
   "note": "The property as a user would want it is false; the theorems exhibit which truncations are accepted silently."
  },
  {
   "property": "C21",
   "status": "proved",
   "theorems": [
    "C21_vector_operations",
    "C21_vector_laws",
    "C21_norm_laws"
   ],
   "note": ""
  },
  {
   "property": "C22",
   "status": "proved",
   "theorems": [
    "C22_chi_photon",
    "C22_chi_photon_covariant",
    "C22_nonnegative",
    "C22_zero_momentum",
    "C22_parallel_electric_field",
    "C22_plane_wave"
   ],
   "note": ""
  },
  {
   "property": "C23",
   "status": "proved",
   "theorems": [
    "C23_chi_lepton",
    "C23_chi_lepton_covariant",
    "C23_nonnegative",
    "C23_rest_refuted"
   ],
   "note": ""
  },
  {
   "property": "C24",
   "status": "proved",
   "theorems": [
    "C24_photon_rotation",
    "C24_lepton_rotation",
    "C24_photon_boost",
    "C24_lepton_boost",
    "C24_rest_frame_refuted"
   ],
   "note": ""
  },
  {
   "property": "C25",
   "status": "proved",
   "theorems": [
    "C25_si_chi_ignores_lambda",
    "C25_normalised_chi_photon",
    "C25_normalised_chi_lepton",
    "C25_engines_report_lambda"
   ],
   "note": ""
  },
  {
   "property": "C26",
   "status": "proved",
   "theorems": [
    "C26_exponential",
    "C26_increasing"
   ],
   "note": ""
  },
  {
   "property": "C27",
   "status": "proved",
   "theorems": [
    "C27_photon_any_arithmetic",
    "C27_lepton_any_arithmetic",
    "C27_photon_below_threshold"
   ],
   "note": ""
  },
  {
   "property": "C28",
   "status": "proved",
   "theorems": [
    "C28_photon_event_time",
    "C28_lepton_event_time",
    "C28_ieee_event_time",
    "C28_ieee_nonnegative_refuted"
   ],
   "note": "Exact arithmetic; in IEEE arithmetic of any format event_dt <= dt, while event_dt >= 0 is refuted."
  },
  {
   "property": "C29",
   "status": "proved",
   "theorems": [
    "C29_photon_step_splitting",
    "C29_lepton_step_splitting"
   ],
   "note": ""
  },
  {
   "property": "C30",
   "status": "proved",
   "theorems": [
    "C30_zero",
    "C30_rate",
    "C30_inverse_energy",
    "C30_direct_rate",
    "C30_coefficient_positive"
   ],
   "note": ""
  },
  {
   "property": "C31",
   "status": "proved",
   "theorems": [
    "C31_lookup_in_table",
    "C31_binary64_refuted"
   ],
   "note": "Exact arithmetic; refuted in binary64 for the default parameters when log(nextafter(500,0)) = log(500), as in glibc."
  },
  {
   "property": "C32",
   "status": "proved",
   "theorems": [
    "C32_pairs_conserve_energy"
   ],
   "note": ""
  },
  {
   "property": "C33",
   "status": "proved",
   "theorems": [
    "C33_counts_weights_draws",
    "C33_weights_add_up"
   ],
   "note": ""
  },
  {
   "property": "C34",
   "status": "proved",
   "theorems": [
    "C34_symmetry"
   ],
   "note": ""
  },
  {
   "property": "C35",
   "status": "proved",
   "theorems": [
    "C35_search_in_bounds",
    "C35_search_any_arithmetic",
    "C35_refuted_b32"
   ],
   "note": "Exact arithmetic for every quadrature result; any-arithmetic bracketing of the search; refuted in binary32 under the two correctly rounded libm values stated as hypotheses."
  },
  {
   "property": "C36",
   "status": "proved",
   "theorems": [
    "C36_momenta_numbers_refuted",
    "C36_momenta_numbers"
   ],
   "note": "Both directions: finite off the interior nodes, NaN on them."
  },
  {
   "property": "C37",
   "status": "proved",
   "theorems": [
    "C37_pair_table_any_schedule",
    "C37_photon_table_any_schedule"
   ],
   "note": ""
  },
  {
   "property": "C38",
   "status": "proved",
   "theorems": [
    "C38_pair_table_refuted",
    "C38_photon_table_refuted",
    "C38_enough_points"
   ],
   "note": "True from two points up, refuted below."
  },
  {
   "property": "C39",
   "status": "proved",
   "theorems": [
    "C39_bw_isolated",
    "C39_qs_isolated",
    "C39_sw_isolated",
    "C39_bw_replay",
    "C39_qs_replay",
    "C39_bw_copy",
    "C39_bw_assign",
    "C39_qs_copy",
    "C39_sw_copy",
    "C39_bw_history",
    "C39_qs_history",
    "C39_sw_history"
   ],
   "note": "Any arithmetic, integrals (oracles) and generator. Histories that raise or are undefined are outside the statement. Quantum synchrotron and Schwinger engines have no assignment operator."
  },
  {
   "property": "C40",
   "status": "proved",
   "theorems": [
    "C40_bw_clone",
    "C40_qs_clone",
    "C40_bw_tables",
    "C40_qs_tables",
    "C40_empty_refuted"
   ],
   "note": "Any arithmetic. The model copies table contents; that the clone shares the storage of the original (views) is not modelled. Refutation for table-less engines in exact arithmetic."
  },
  {
   "property": "C41",
   "status": "proved",
   "theorems": [
    "C41_photon_missing_table",
    "C41_lepton_missing_table"
   ],
   "note": ""
  },
  {
   "property": "C42",
   "status": "proved",
   "theorems": [
    "C42_rate_below_maximum",
    "C42_above_maximum_refuted",
    "C42_binary64_refuted",
    "C42_zero",
    "C42_inverse_energy",
    "C42_direct_rate"
   ],
   "note": "Holds below the table maximum; refuted at and above it (exact arithmetic and binary64)."
  },
  {
   "property": "C43",
   "status": "proved",
   "theorems": [
    "C43_momentum_conserved",
    "C43_any_table"
   ],
   "note": ""
  },
  {
   "property": "C44",
   "status": "proved",
   "theorems": [
    "C44_fractions_and_direction",
    "C44_generated_tables"
   ],
   "note": ""
  },
  {
   "property": "C45",
   "status": "proved",
   "theorems": [
    "C45_exact",
    "C45_ieee",
    "C45_one_refuted"
   ],
   "note": "Exact arithmetic and every IEEE format; refuted at u = 1 (outside the contract of the random numbers)."
  },
  {
   "property": "C46",
   "status": "proved",
   "theorems": [
    "C46_rate_value",
    "C46_parallel_fields",
    "C46_limit",
    "C46_rate_sign",
    "C46_invariants",
    "C46_boost",
    "C46_rotation",
    "C46_binary32_refuted",
    "C46_binary64_refuted"
   ],
   "note": "Exact arithmetic; NaN exhibited for weak magnetic fields in binary32 and binary64."
  },
  {
   "property": "C47",
   "status": "proved",
   "theorems": [
    "C47_single",
    "C47_position"
   ],
   "note": "About internal_generate_pairs_single: the public wrapper generate_pairs_single does not compile when instantiated (wrong argument list)."
  },
  {
   "property": "C48",
   "status": "proved",
   "theorems": [
    "C48_multiple"
   ],
   "note": "About internal_generate_pairs_multiple: the public wrapper does not compile when instantiated."
  },
  {
   "property": "C49",
   "status": "proved",
   "theorems": [
    "C49_history",
    "C49_add",
    "C49_remove",
    "C49_toend",
    "C49_fields"
   ],
   "note": "All histories of the modelled operations; user processes and pushers must keep array lengths (respectful). Simplification: a user process does not call back into the species it runs on."
  },
  {
   "property": "C50",
   "status": "proved",
   "theorems": [
    "C50_removes"
   ],
   "note": "Generic arithmetic. Index lists must be strictly increasing and in range, as the name of the function says."
  },
  {
   "property": "C51",
   "status": "proved",
   "theorems": [
    "C51_destroys",
    "C51_unknown"
   ],
   "note": "The registered function is arbitrary; it may raise or be undefined. Finding: unknown IDs are inserted into the map by operator[]."
  },
  {
   "property": "C52",
   "status": "proved",
   "theorems": [
    "C52_effect",
    "C52_undefined",
    "C52_refuted"
   ],
   "note": "Finding: the code swaps component arrays instead of entries; exact effect proved, expected property refuted by a two particle witness."
  },
  {
   "property": "C53",
   "status": "proved",
   "theorems": [
    "C53_register",
    "C53_run",
    "C53_all",
    "C53_unknown_refuted"
   ],
   "note": "first_use describes the history only. Finding: operator[] inserts an empty function for an unknown ID."
  },
  {
   "property": "C54",
   "status": "proved",
   "theorems": [
    "C54_midpoint",
    "C54_unique",
    "C54_energy",
    "C54_reverse",
    "C54_reverse_refuted"
   ],
   "note": "Real arithmetic (RX), arbitrary species; reversibility refuted by a rational witness with E != 0."
  },
  {
   "property": "C55",
   "status": "proved",
   "theorems": [
    "C55_photons",
    "C55_leptons",
    "C55_zero_momentum_refuted"
   ],
   "note": "Real arithmetic (RX)."
  },
  {
   "property": "C56",
   "status": "proved",
   "theorems": [
    "C56_step",
    "C56_counts"
   ],
   "note": "Generic arithmetic, arbitrary generator, tables and external components; up to 2^31-1 photons (get_num_particles returns int). C56_nonvacuous is a computed binary64 run."
  },
  {
   "property": "C57",
   "status": "proved",
   "theorems": [
    "C57_chi_photon_units",
    "C57_chi_lepton_units",
    "C57_pair_rate_units",
    "C57_photon_rate_units",
    "C57_schwinger_units",
    "C57_schwinger_units_refuted"
   ],
   "note": "Agreement proved for chi and the two rates; for the Schwinger rate the exact discrepancy is proved (C57_schwinger_units, C57_schwinger_units_refuted)."
  },
  {
   "property": "C58",
   "status": "proved",
   "theorems": [
    "C58_energy_created"
   ],
   "note": "The energy balance a user would want (conservation) is false; the exact sign and bound of the excess are proved."
  },
  {
   "property": "C59",
   "status": "proved",
   "theorems": [
    "C59_counts_weights_draws",
    "C59_weights_add_up",
    "C59_sampling_zero"
   ],
   "note": ""
  },
  {
   "property": "C60",
   "status": "proved",
   "theorems": [
    "C60_any_arithmetic",
    "C60_place"
   ],
   "note": "Finding. Generic version for every arithmetic, and the distance in real arithmetic."
  },
  {
   "property": "C61",
   "status": "proved",
   "theorems": [
    "C61_same_stream"
   ],
   "note": "Finding. Generic arithmetic and generator."
  },
  {
   "property": "C62",
   "status": "proved",
   "theorems": [
    "C62_sound",
    "C62_finds_owner",
    "C62_no_owner"
   ],
   "note": "No arithmetic involved; INTEGER(idp) as unbounded integers."
  },
  {
   "property": "C63",
   "status": "proved",
   "theorems": [
    "C63_search",
    "C63_sound"
   ],
   "note": "As C62."
  },
  {
   "property": "C64",
   "status": "proved",
   "theorems": [
    "C64_3d",
    "C64_2d",
    "C64_symmetric",
    "C64_empty_refuted"
   ],
   "note": "As C62; C64_empty_refuted is the finding for empty boxes."
  },
  {
   "property": "C65",
   "status": "proved",
   "theorems": [
    "C65_any_arithmetic",
    "C65_exact",
    "C65_quality",
    "C65_outside_refuted",
    "C65_last_cell_refuted"
   ],
   "note": "C65_any_arithmetic for every arithmetic; C65_exact and C65_quality in real arithmetic; the two refutations are binary64 runs."
  },
  {
   "property": "C66",
   "status": "proved",
   "theorems": [
    "C66_ranks",
    "C66_range",
    "C66_limits",
    "C66_periodic_x",
    "C66_ranks_refuted",
    "C66_periodic_y_refuted"
   ],
   "note": "l_cart_comm false; the Cartesian communicator of MPI is not modelled. Refutations hold for every grid of the given shape."
  },
  {
   "property": "C67",
   "status": "proved",
   "theorems": [
    "C67_counting_sort",
    "C67_exact_3d",
    "C67_exact_2d",
    "C67_binary64_refuted",
    "C67_below_refuted"
   ],
   "note": "C67_counting_sort for any bins; C67_exact_* in real arithmetic including the FLOOR to a 32 bit integer; refutations for binary64 and for a particle below the corner."
  },
  {
   "property": "C68",
   "status": "proved",
   "theorems": [
    "C68_independent",
    "C68_block_size",
    "C68_boris_scheme",
    "C68_scheme_determines",
    "C68_magnetic_field_does_no_work",
    "C68_electric_field",
    "C68_reversible",
    "C68_split"
   ],
   "note": "C68_independent and C68_block_size hold for any arithmetic; the others in real arithmetic for an array of any length."
  },
  {
   "property": "C69",
   "status": "proved",
   "theorems": [
    "C69_vay_scheme",
    "C69_fields_cancel",
    "C69_reversible",
    "C69_two_halves",
    "C69_other_values"
   ],
   "note": "Real arithmetic, arrays of any length; the mass and c are non-zero, c positive."
  },
  {
   "property": "C70",
   "status": "proved",
   "theorems": [
    "C70_S09",
    "C70_B08",
    "C70_B08_brakes",
    "C70_LL",
    "C70_free_flight",
    "C70_B08_at_rest_refuted"
   ],
   "note": "Formulas in real arithmetic for one particle, extended to arrays by C68_independent. The refutation is for every particle with zero mean momentum."
  },
  {
   "property": "C71",
   "status": "proved",
   "theorems": [
    "C71_slower_than_light",
    "C71_push_2d",
    "C71_energy",
    "C71_energy_nonnegative",
    "C71_magnetic_push_keeps_energy"
   ],
   "note": "Real arithmetic. The OpenMP schedule of the energy loop (a SIMD loop without reduction clause) is not modelled; the sum is sequential."
  },
  {
   "property": "C72",
   "status": "proved",
   "theorems": [
    "C72_schedule_b",
    "C72_schedule_e",
    "C72_schedule_b_any_order",
    "C72_schedule_e_any_order",
    "C72_schedule_b_2d",
    "C72_schedule_e_2d",
    "C72_schedule_b_any_order_2d",
    "C72_schedule_e_any_order_2d",
    "C72_schedule_cleaning",
    "C72_frame_b",
    "C72_frame_e",
    "C72_guards_b_refuted",
    "C72_guards_e_refuted",
    "C72_guards_2d_refuted",
    "C72_private_index_e_refuted",
    "C72_private_index_b_refuted"
   ],
   "note": "Any arithmetic. One statement a(p)=a(p)+... is atomic in the interleaving. The refutations hold for every field content."
  },
  {
   "property": "C73",
   "status": "proved",
   "theorems": [
    "C73_div_b",
    "C73_div_b_2d",
    "C73_div_b_diagnostic",
    "C73_div_b_history"
   ],
   "note": "Real arithmetic. The point must have its stencil in the region where the formulas are not cut; for histories, in the cells of the domain."
  },
  {
   "property": "C74",
   "status": "proved",
   "theorems": [
    "C74_div_e",
    "C74_div_e_2d",
    "C74_div_e_diagnostic",
    "C74_gauss_history",
    "C74_residual_history"
   ],
   "note": "Real arithmetic. The continuity equation of the current is a hypothesis of the electric step here; see the deposition properties for where it comes from."
  },
  {
   "property": "C75",
   "status": "proved",
   "theorems": [
    "C75_update_b",
    "C75_update_e",
    "C75_update_b_2d",
    "C75_update_e_2d",
    "C75_plane_b",
    "C75_plane_e",
    "C75_reversible_b",
    "C75_reversible_e",
    "C75_superposition_b",
    "C75_superposition_e",
    "C75_uniform_b",
    "C75_uniform_e",
    "C75_order_two"
   ],
   "note": "Real arithmetic; C75_order_two for any arithmetic. Points of the guard region where the sums are cut are excluded from the formula but included in reversibility, superposition and uniform fields."
  },
  {
   "property": "C76",
   "status": "proved",
   "theorems": [
    "C76_density",
    "C76_density_2d"
   ],
   "note": "Real arithmetic. C78_in_bounds shows when the call returns."
  },
  {
   "property": "C77",
   "status": "proved",
   "theorems": [
    "C77_total_charge",
    "C77_total_charge_2d"
   ],
   "note": "Real arithmetic. 2D: orders up to two; order three is C82."
  },
  {
   "property": "C78",
   "status": "proved",
   "theorems": [
    "C78_in_bounds",
    "C78_out_of_bounds",
    "C78_unknown_order_refuted"
   ],
   "note": "C78_unknown_order_refuted: orders above three use undefined elements."
  },
  {
   "property": "C79",
   "status": "proved",
   "theorems": [
    "C79_centre_of_charge"
   ],
   "note": "Real arithmetic."
  },
  {
   "property": "C80",
   "status": "proved",
   "theorems": [
    "C80_optimised_order_1",
    "C80_optimised_order_3",
    "C80_optimised_order_2"
   ],
   "note": "Orders 1 and 3 in any arithmetic, order 2 in real arithmetic: its operations are associated differently."
  },
  {
   "property": "C81",
   "status": "proved",
   "theorems": [
    "C81_any_order_of_updates",
    "C81_sign",
    "C81_support"
   ],
   "note": "Real arithmetic; the updates are those of the routines of fixed order."
  },
  {
   "property": "C82",
   "status": "proved",
   "theorems": [
    "C82_total_charge_2d_refuted"
   ],
   "note": "The English property \"the deposited charge is the charge of the particles\" is refuted for 2D order three, with a bound on the error. 1/6 and 2/3 are modelled as the single precision quotients; arithmetic on them is exact."
  },
  {
   "property": "C83",
   "status": "proved",
   "theorems": [
    "C83_continuity",
    "C83_continuity_any_order"
   ],
   "note": "Real arithmetic. C85 shows when the call returns."
  },
  {
   "property": "C84",
   "status": "proved",
   "theorems": [
    "C84_total_current",
    "C84_total_current_any_order",
    "C84_total_current_plain"
   ],
   "note": "Real arithmetic."
  },
  {
   "property": "C85",
   "status": "proved",
   "theorems": [
    "C85_in_bounds",
    "C85_in_bounds_any_order",
    "C85_too_fast_refuted"
   ],
   "note": "C85_too_fast_refuted: a particle that moves by more than two cells."
  },
  {
   "property": "C86",
   "status": "proved",
   "theorems": [
    "C86_optimised"
   ],
   "note": "Real arithmetic."
  },
  {
   "property": "C87",
   "status": "proved",
   "theorems": [
    "C87_scratch_order_1",
    "C87_scratch_order_2",
    "C87_scratch_order_3",
    "C87_order_of_particles"
   ],
   "note": "Scratch: any arithmetic. Order of the particles: real arithmetic."
  },
  {
   "property": "C88",
   "status": "proved",
   "theorems": [
    "C88_high_order_refuted"
   ],
   "note": "The English property \"the current of any order satisfies the continuity equation\" is refuted for orders above three."
  },
  {
   "property": "C89",
   "status": "proved",
   "theorems": [
    "C89_residual",
    "C89_gauss_law"
   ],
   "note": "Real arithmetic, one species, one tile, second order solver; boundary treatment appears as arbitrary changes of the guard cells of E and B."
  },
  {
   "property": "C90",
   "status": "proved",
   "theorems": [
    "C90_interpolation"
   ],
   "note": "Real arithmetic; algorithms compiled with DEV are left out."
  },
  {
   "property": "C91",
   "status": "proved",
   "theorems": [
    "C91_affine_fields_exact"
   ],
   "note": "Real arithmetic."
  },
  {
   "property": "C92",
   "status": "proved",
   "theorems": [
    "C92_no_overshoot"
   ],
   "note": "Real arithmetic."
  },
  {
   "property": "C93",
   "status": "proved",
   "theorems": [
    "C93_right_or_out_of_bounds",
    "C93_out_of_bounds"
   ],
   "note": "Real arithmetic. Success for particles inside is C90_interpolation."
  },
  {
   "property": "C94",
   "status": "proved",
   "theorems": [
    "C94_algorithms_agree"
   ],
   "note": "Real arithmetic."
  },
  {
   "property": "C95",
   "status": "proved",
   "theorems": [
    "C95_uniform_field_refuted"
   ],
   "note": "The English property is refuted for algorithm 2 and mixed orders with an order of three."
  },
  {
   "property": "C96",
   "status": "proved",
   "theorems": [
    "C96_unknown_order_refuted",
    "C96_no_magnetic_field_refuted"
   ],
   "note": "The English property is refuted."
  },
  {
   "property": "C97",
   "status": "proved",
   "theorems": [
    "C97_force_on_charge"
   ],
   "note": "Real arithmetic, nodal fields, full orders."
  },
  {
   "property": "C98",
   "status": "proved",
   "theorems": [
    "C98_particles_independent"
   ],
   "note": "Any arithmetic."
  },
  {
   "property": "C99",
   "status": "proved",
   "theorems": [
    "C99_tiles_transparent"
   ],
   "note": "Real arithmetic; one tile and one species at a time."
  },
  {
   "property": "C100",
   "status": "proved",
   "theorems": [
    "C100_one_tile_for_each_position",
    "C100_grid_points",
    "C100_initial_tiles"
   ],
   "note": "Real arithmetic."
  },
  {
   "property": "C101",
   "status": "proved",
   "theorems": [
    "C101_add",
    "C101_remove"
   ],
   "note": "Exact arithmetic and IEEE binary64 for the capacities."
  },
  {
   "property": "C102",
   "status": "proved",
   "theorems": [
    "C102_mask"
   ],
   "note": ""
  },
  {
   "property": "C103",
   "status": "proved",
   "theorems": [
    "C103_group",
    "C103_large_group_refuted"
   ],
   "note": "The English property is refuted for groups that need more than one enlargement."
  },
  {
   "property": "C104",
   "status": "proved",
   "theorems": [
    "C104_insert",
    "C104_insert_in_place"
   ],
   "note": ""
  },
  {
   "property": "C105",
   "status": "proved",
   "theorems": [
    "C105_exchange",
    "C105_exchange_in_place"
   ],
   "note": "3D. Where a particle has to be is the tile index computed by the code for any arithmetic, and the tile containing the particle in exact arithmetic."
  },
  {
   "property": "C106",
   "status": "proved",
   "theorems": [
    "C106_parallel_exchange",
    "C106_parallel_exchange_in_place"
   ],
   "note": "3D. One iteration of the loop over the particles of a tile is atomic; iterations of different tiles interleave arbitrarily."
  },
  {
   "property": "C107",
   "status": "proved",
   "theorems": [
    "C107_split",
    "C107_local_sizes",
    "C107_local_domains"
   ],
   "note": "mpi_initialise without FFTW groups; the local domains in exact arithmetic."
  },
  {
   "property": "C108",
   "status": "proved",
   "theorems": [
    "C108_exchange_between_processes"
   ],
   "note": "Blocking version, 3D, one species. The receiving process must have a tile for each particle (C109 shows it in exact arithmetic)."
  },
  {
   "property": "C109",
   "status": "proved",
   "theorems": [
    "C109_periodic",
    "C109_periodic_openmp",
    "C109_binary64_refuted"
   ],
   "note": "Periodic boundaries in all directions; proved in exact arithmetic, refuted for binary64."
  },
  {
   "property": "C110",
   "status": "proved",
   "theorems": [
    "C110_absorbing_lower",
    "C110_absorbing_upper",
    "C110_upper_boundary_refuted",
    "C110_reflecting_lower",
    "C110_reflecting_upper",
    "C110_reinjecting_lower"
   ],
   "note": "One direction at a time, exact arithmetic; the English property is refuted for upper boundaries with offset 0."
  },
  {
   "property": "C111",
   "status": "proved",
   "theorems": [
    "C111_guard_exchange",
    "C111_one_responsible"
   ],
   "note": "3D. Requires more cells than guard cells in every process and direction."
  },
  {
   "property": "C112",
   "status": "proved",
   "theorems": [
    "C112_copies_agree"
   ],
   "note": "3D, any arithmetic."
  },
  {
   "property": "C113",
   "status": "proved",
   "theorems": [
    "C113_summation",
    "C113_conserved"
   ],
   "note": "3D, exact arithmetic; blocking version for periodic axes (C115 for absorbing ones)."
  },
  {
   "property": "C114",
   "status": "proved",
   "theorems": [
    "C114_guard_numbers_refuted",
    "C114_same_guards"
   ],
   "note": "The property is refuted: derived types are created once and kept. With equal numbers of guard cells it is proved."
  },
  {
   "property": "C115",
   "status": "proved",
   "theorems": [
    "C115_blocking_wraps",
    "C115_absorbing_refuted"
   ],
   "note": "The property is refuted for the blocking summation, which is shown to treat every axis as periodic; the non-blocking one is right (C113)."
  },
  {
   "property": "C116",
   "status": "proved",
   "theorems": [
    "C116_tiles_invisible",
    "C116_possible",
    "C116_total_charge"
   ],
   "note": "3D, exact arithmetic; routines of order 1, 2, 3 (scalar) and of any order. Several threads only for a grid cut along x (C117)."
  },
  {
   "property": "C117",
   "status": "proved",
   "theorems": [
    "C117_threads_refuted",
    "C117_lost",
    "C117_deterministic"
   ],
   "note": "The property is refuted with two threads and four tiles; C117_lost says what can be lost in general; determinism is proved for grids cut along x only."
  },
  {
   "property": "C118",
   "status": "proved",
   "theorems": [
    "C118_density",
    "C118_decomposition",
    "C118_possible"
   ],
   "note": "3D, exact arithmetic. Combines the tile deposition (C116) and the summation (C113); one thread per process or tiles along x only (C117); the blocking summation with periodic boundaries only (C115)."
  },
  {
   "property": "C119",
   "status": "proved",
   "theorems": [
    "C119_total_charge"
   ],
   "note": "3D, exact arithmetic, with the conditions of C118."
  },
  {
   "property": "C120",
   "status": "proved",
   "theorems": [
    "C120_continuity",
    "C120_possible"
   ],
   "note": "3D, exact arithmetic; Esirkepov deposition, optimised routines of order 1, 2, 3 and the general one. Several threads only for a grid cut along x (C117). The three components may come from different interleavings in the model, which allows more outcomes than the code."
  },
  {
   "property": "C121",
   "status": "proved",
   "theorems": [
    "C121_continuity",
    "C121_deposited",
    "C121_possible"
   ],
   "note": "3D, exact arithmetic, with the conditions of C118 and C120. The exchange of the particles itself is not run: the theorem takes any two placements that hold the same particles up to periods."
  },
  {
   "property": "C122",
   "status": "proved",
   "theorems": [
    "C122_decomposition"
   ],
   "note": "3D, exact arithmetic, with the conditions of C118 and C120. The closed form of the current in every node is in C121_deposited."
  },
  {
   "property": "C123",
   "status": "proved",
   "theorems": [
    "C123_step"
   ],
   "note": "3D, exact arithmetic. Near the ends of the arrays, where terms are left out, only the absence of out of bounds accesses is stated."
  },
  {
   "property": "C124",
   "status": "proved",
   "theorems": [
    "C124_update",
    "C124_longitudinal"
   ],
   "note": "3D, second order. The routine of the Karkkainen solver is in C135; the 2D routine is not covered."
  },
  {
   "property": "C125",
   "status": "proved",
   "theorems": [
    "C125_run",
    "C125_possible",
    "C125_decomposition"
   ],
   "note": "3D, periodic boundaries, exact arithmetic. Each exchange starts with any derived types that the processes may have created. The absorbing boundaries (split fields) are not covered."
  },
  {
   "property": "C126",
   "status": "proved",
   "theorems": [
    "C126_gauss",
    "C126_magnetic",
    "C126_possible"
   ],
   "note": "3D, periodic boundaries, exact arithmetic, with the conditions of C121 and C125. The motion of the particles is what C121 assumes: each moves with its velocity, to any tile and process. Gauss's law is for the second order solver (C126_gauss), div B for any order (C126_magnetic)."
  },
  {
   "property": "C127",
   "status": "proved",
   "theorems": [
    "C127_decomposition"
   ],
   "note": "3D, periodic boundaries, exact arithmetic. Assumes the same particles after each step; that the same fields give the same particles is not part of it."
  },
  {
   "property": "C128",
   "status": "proved",
   "theorems": [
    "C128_default_exchange"
   ],
   "note": "3D, one species, tiles visited one after the other. The process that gets a particle must have a tile at its edge for it (C129 shows it in exact arithmetic)."
  },
  {
   "property": "C129",
   "status": "proved",
   "theorems": [
    "C129_default_periodic",
    "C129_single_tile_refuted"
   ],
   "note": "Periodic boundaries in all directions; proved in exact arithmetic for at least two tiles in each direction, refuted for a single tile."
  },
  {
   "property": "C130",
   "status": "proved",
   "theorems": [
    "C130_kinds",
    "C130_reflecting_refuted",
    "C130_absorbing",
    "C130_absorbing_refuted"
   ],
   "note": "One direction at a time, exact arithmetic; refuted for reflecting boundaries and for absorbing boundaries inside of the domain."
  },
  {
   "property": "C131",
   "status": "proved",
   "theorems": [
    "C131_count_refuted",
    "C131_late_counts_refuted"
   ],
   "note": "Refuted by computed runs in binary64."
  },
  {
   "property": "C132",
   "status": "proved",
   "theorems": [
    "C132_push"
   ],
   "note": "Boris and Vay pushers, exact arithmetic, one species; the tiles in any order."
  },
  {
   "property": "C133",
   "status": "proved",
   "theorems": [
    "C133_run",
    "C133_goes_on",
    "C133_gauss"
   ],
   "note": "3D, periodic boundaries, exact arithmetic, one species without sorting (off by default) and without laser; Boris or Vay pusher; finite difference solver. Conditions: those of C126, arrays large enough for all particles, and for the default exchange two tiles or more in each direction. Gauss's law is for the second order solver. The exchange between processes is the blocking one (mpicom_curr 1), or the default routine."
  },
  {
   "property": "C134",
   "status": "proved",
   "theorems": [
    "C134_decomposition",
    "C134_arrays"
   ],
   "note": "Same conditions as C133, for both runs. The particles are equal up to order."
  },
  {
   "property": "C135",
   "status": "proved",
   "theorems": [
    "C135_update",
    "C135_divergence",
    "C135_cleaning",
    "C135_longitudinal",
    "C135_update_2d",
    "C135_divergence_2d",
    "C135_cleaning_2d"
   ],
   "note": "Exact arithmetic, positive cell sizes and time step, second order. The bounds of the arrays and of the updated regions are those of the caller, as long as the points the formulas use are inside."
  },
  {
   "property": "C136",
   "status": "proved",
   "theorems": [
    "C136_wave",
    "C136_stable",
    "C136_unstable",
    "C136_bounded",
    "C136_along_axis",
    "C136_stable_2d"
   ],
   "note": "Exact arithmetic, on the unbounded grid; the runs alternate the magnetic push of C135 and the second order electric push. Stability is the one of plane waves (von Neumann); the two dimensional part covers the wave operator."
  },
  {
   "property": "C137",
   "status": "proved",
   "theorems": [
    "C137_weights",
    "C137_axes",
    "C137_order2",
    "C137_order4",
    "C137_order6_refuted",
    "C137_nodal2_refuted",
    "C137_nodal4_refuted"
   ],
   "note": "Exact arithmetic. The intended property, weights of the derivative on all points 1-h to h, is false of the code: the update of the earlier coefficients is inside the test j = i-1 (submain.F90:971-981). C137_weights says for every order what is computed; the refutations give the slopes at order 6 staggered and orders 2 and 4 nodal."
  },
  {
   "property": "C138",
   "status": "proved",
   "theorems": [
    "C138_bounded",
    "C138_wave_equation",
    "C138_fields",
    "C138_bounded_2d",
    "C138_grows",
    "C138_default",
    "C138_order4_refuted",
    "C138_karkkainen",
    "C138_spectral",
    "C138_spectral_2d"
   ],
   "note": "Exact arithmetic, on the unbounded grid, staggered fields; von Neumann stability: runs restricted to one plane wave. C138_wave_equation and C138_fields carry it to the electric field of a run in vacuum. Plane waves on which the Laplacian vanishes are left out of the bound. The spectral part gives the step only."
  },
  {
   "property": "C139",
   "status": "proved",
   "theorems": [
    "C139_weights",
    "C139_exact"
   ],
   "note": "Exact arithmetic: logarithm and exponential are the real functions. Even orders of at least 2; odd orders, for which the Fortran array has p/2 rounded down entries, are not covered. The factorials, the powers of 16 and the signs are shown to be the derivatives of the Lagrange polynomials for every order, by induction."
  }
 ]
}