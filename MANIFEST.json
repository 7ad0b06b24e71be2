{
 "claims": [
  {
   "property": "C01",
   "status": "proved",
   "theorems": [
    "C01_dynamic2d_is_a_list",
    "C01_dynamicrec_is_a_list"
   ],
   "note": ""
  },
  {
   "property": "C02",
   "status": "proved",
   "theorems": [
    "C02_linear_memory",
    "C02_outside",
    "C02_capacity_dynamic2d",
    "C02_capacity_dynamicrec"
   ],
   "note": ""
  },
  {
   "property": "C03",
   "status": "proved",
   "theorems": [
    "C03_unknown_column",
    "C03_columns",
    "C03_missing_column"
   ],
   "note": ""
  },
  {
   "property": "C04",
   "status": "proved",
   "theorems": [
    "C04_negative_index_refuted"
   ],
   "note": "REFUTED: the property is false of the code; the theorem shows arr[-1] is wrong for every history of distinct non-zero rows."
  },
  {
   "property": "C05",
   "status": "proved",
   "theorems": [
    "C05_truncate_exact",
    "C05_dropped_row_readable_refuted",
    "C05_truncate_empty_refuted"
   ],
   "note": "REFUTED: the property is false of the code; truncating an empty table exposes stale rows and loses the next row (C05_truncate_empty_refuted), and a dropped row stays readable (C05_dropped_row_readable_refuted). On a non-empty table truncation is exact (C05_truncate_exact)."
  },
  {
   "property": "C06",
   "status": "proved",
   "theorems": [
    "C06_unknown_universe",
    "C06_independent_histories_refuted",
    "C06_every_universe_sees_all_rows"
   ],
   "note": "REFUTED: the history table is a class attribute shared by all universes; the second theorem states what is seen instead."
  },
  {
   "property": "C07",
   "status": "proved",
   "theorems": [
    "C07_ring_bound_refuted",
    "C07_ring_contents"
   ],
   "note": "REFUTED for the size bound (length+1 elements are kept); the exact contents law is proved."
  },
  {
   "property": "C08",
   "status": "proved",
   "theorems": [
    "C08_fresh",
    "C08_ring_extremes"
   ],
   "note": ""
  },
  {
   "property": "C09",
   "status": "proved",
   "theorems": [
    "C09_output",
    "C09_throttler_gap",
    "C09_throttler_decision"
   ],
   "note": ""
  },
  {
   "property": "C10",
   "status": "proved",
   "theorems": [
    "C10_boolean_option_off_refuted",
    "C10_only_empty_string_disables"
   ],
   "note": "REFUTED: bool('False') is True, so an option whose default is True can only be disabled by the empty string."
  },
  {
   "property": "C11",
   "status": "proved",
   "theorems": [
    "C11_truth",
    "C11_documented_defaults",
    "C11_set_values",
    "C11_typed_options",
    "C11_untyped_options",
    "C11_false_default_any_string_enables"
   ],
   "note": ""
  },
  {
   "property": "C12",
   "status": "proved",
   "theorems": [
    "C12_getboolenv_truth_table"
   ],
   "note": ""
  },
  {
   "property": "C13",
   "status": "proved",
   "theorems": [
    "C13_types_by_count",
    "C13_side_swap",
    "C13_order_irrelevant"
   ],
   "note": ""
  },
  {
   "property": "C14",
   "status": "proved",
   "theorems": [
    "C14_empty_reaction",
    "C14_particle_filter",
    "C14_particle_filter_compose",
    "C14_interaction_filter",
    "C14_interaction_filter_compose"
   ],
   "note": ""
  },
  {
   "property": "C15",
   "status": "proved",
   "theorems": [
    "C15_orderer_permutes",
    "C15_orderer_sorted",
    "C15_orderer_canonical"
   ],
   "note": ""
  },
  {
   "property": "C16",
   "status": "proved",
   "theorems": [
    "C16_comoving_temperature",
    "C16_records",
    "C16_bookkeeping_invariants"
   ],
   "note": ""
  },
  {
   "property": "C17",
   "status": "proved",
   "theorems": [
    "C17_scale_factor_and_time_increase",
    "C17_closed_form_log",
    "C17_closed_form_linear"
   ],
   "note": ""
  },
  {
   "property": "C18",
   "status": "proved",
   "theorems": [
    "C18_friedmann",
    "C18_scaling"
   ],
   "note": ""
  },
  {
   "property": "C19",
   "status": "proved",
   "theorems": [
    "C19_neff_counts_neutrinos",
    "C19_neff_affine",
    "C19_neff_increasing"
   ],
   "note": ""
  },
  {
   "property": "C20",
   "status": "proved",
   "theorems": [
    "C20_initial_state",
    "C20_exceptions",
    "C20_constructor_succeeds_iff",
    "C20_missing_temperature_is_TypeError"
   ],
   "note": ""
  },
  {
   "property": "C21",
   "status": "proved",
   "theorems": [
    "C21_evolve_postcondition"
   ],
   "note": ""
  },
  {
   "property": "C22",
   "status": "proved",
   "theorems": [
    "C22_broken_temperature_exits",
    "C22_interrupt_exits"
   ],
   "note": ""
  },
  {
   "property": "C23",
   "status": "proved",
   "theorems": [
    "C23_running_snapshot",
    "C23_final_export_is_whole_history",
    "C23_every_moment_is_a_prefix"
   ],
   "note": ""
  },
  {
   "property": "C24",
   "status": "proved",
   "theorems": [
    "C24_export_crash_safe_refuted",
    "C24_every_export_has_an_empty_window"
   ],
   "note": "REFUTED: the snapshot file is opened with truncation before it is rewritten, so a crash in between leaves it empty although a complete snapshot existed. Every export has this window (second theorem). C23 proves that whatever is on disk is always a prefix of the history."
  },
  {
   "property": "C25",
   "status": "proved",
   "theorems": [
    "C25_kawano_rows_are_the_cold_steps",
    "C25_comparison_is_the_float_order",
    "C25_s4_file_holds_the_same_rows",
    "C25_kawano_without_folder_raises"
   ],
   "note": ""
  },
  {
   "property": "C26",
   "status": "proved",
   "theorems": [
    "C26_temperature_derivative"
   ],
   "note": ""
  },
  {
   "property": "C27",
   "status": "proved",
   "theorems": [
    "C27_no_particles",
    "C27_pure_radiation"
   ],
   "note": ""
  },
  {
   "property": "C28",
   "status": "proved",
   "theorems": [
    "C28_entropic_dof",
    "C28_entropy_of_radiation",
    "C28_empty_bath",
    "C28_qcd_conserves_entropy",
    "C28_qcd_needs_two_rows",
    "C28_qcd_needs_hadrons"
   ],
   "note": ""
  },
  {
   "property": "C29",
   "status": "proved",
   "theorems": [
    "C29_first_step_is_euler_refuted",
    "C29_first_step_is_three_halves_euler"
   ],
   "note": "REFUTED: the recorded initial row has fraction 0, so the first step is the two-point formula on [0; f] and moves aT by 1.5*h*f. The companion theorem proves this value for every f and h."
  },
  {
   "property": "C30",
   "status": "proved",
   "theorems": [
    "C30_adams_bashforth_exact",
    "C30_adams_bashforth_exact_auto",
    "C30_adams_bashforth_not_exact_at_order"
   ],
   "note": ""
  },
  {
   "property": "C31",
   "status": "proved",
   "theorems": [
    "C31_adams_bashforth_argument_checking",
    "C31_only_last_derivatives_matter"
   ],
   "note": ""
  },
  {
   "property": "C32",
   "status": "proved",
   "theorems": [
    "C32_adams_moulton_implicit_equation",
    "C32_adams_moulton_exact",
    "C32_adams_moulton_automatic_order"
   ],
   "note": ""
  },
  {
   "property": "C33",
   "status": "proved",
   "theorems": [
    "C33_adams_moulton_accepts_every_order_refuted",
    "C33_order_one_always_fails_with_history",
    "C33_orders_two_to_five_accepted"
   ],
   "note": "REFUTED: order=1 slices fs[-0:], i.e. the whole history, and raises AssertionError for every non-empty history. Orders 2..5 are proved accepted for every long enough history."
  },
  {
   "property": "C34",
   "status": "proved",
   "theorems": [
    "C34_implicit_euler_solves_and_unique",
    "C34_implicit_euler_nonnegative_and_damped"
   ],
   "note": ""
  },
  {
   "property": "C35",
   "status": "proved",
   "theorems": [
    "C35_euler_exact_for_constants",
    "C35_heun_exact_for_affine",
    "C35_heun_second_order_for_linear_ode"
   ],
   "note": ""
  },
  {
   "property": "C36",
   "status": "proved",
   "theorems": [
    "C36_quadrature_linear",
    "C36_quadrature_empty_interval",
    "C36_quadrature_antisymmetric",
    "C36_quadrature_affine_substitution",
    "C36_quadrature_exact_on_polynomials",
    "C36_quadrature_nonnegative"
   ],
   "note": ""
  },
  {
   "property": "C37",
   "status": "proved",
   "theorems": [
    "C37_double_is_iterated",
    "C37_paired_is_componentwise"
   ],
   "note": ""
  },
  {
   "property": "C38",
   "status": "proved",
   "theorems": [
    "C38_no_collisions_refuted",
    "C38_no_integrals"
   ],
   "note": "REFUTED: with all integrals zero the solver returns the distribution itself, which is then used as the collision term, so f grows by the factor 1+h; with no registered integral the distribution is unchanged (C38_no_integrals)."
  },
  {
   "property": "C39",
   "status": "proved",
   "theorems": [
    "C39_linear_grid",
    "C39_defaults_used_when_missing"
   ],
   "note": ""
  },
  {
   "property": "C40",
   "status": "proved",
   "theorems": [
    "C40_log_grid"
   ],
   "note": ""
  },
  {
   "property": "C41",
   "status": "proved",
   "theorems": [
    "C41_heuristic_grid_terminates",
    "C41_successive_points"
   ],
   "note": ""
  },
  {
   "property": "C42",
   "status": "proved",
   "theorems": [
    "C42_linear_between_neighbours_refuted",
    "C42_linear_at_nodes",
    "C42_linear_extrapolates_next_cell"
   ],
   "note": "REFUTED: between grid points i and i+1 the code evaluates the line through points i+1 and i+2 (searchsorted already returns i+1), so it extrapolates; grid points themselves are exact."
  },
  {
   "property": "C43",
   "status": "proved",
   "theorems": [
    "C43_affine_exact_up_to_last_cell",
    "C43_affine_exact_refuted",
    "C43_last_cell_constant"
   ],
   "note": "REFUTED in the last cell, where the code returns the constant last value; proved for every x up to the last-but-one grid point."
  },
  {
   "property": "C44",
   "status": "proved",
   "theorems": [
    "C44_cubic_at_nodes",
    "C44_cubic_affine",
    "C44_cubic_quadratic",
    "C44_cubic_continuous_refuted"
   ],
   "note": "REFUTED (continuity part): the interpolant jumps at interior grid points; exactness at nodes, on affine and on quadratic data are proved."
  },
  {
   "property": "C45",
   "status": "proved",
   "theorems": [
    "C45_empty_grid",
    "C45_cpp_search",
    "C45_python_search_agrees"
   ],
   "note": ""
  },
  {
   "property": "C46",
   "status": "proved",
   "theorems": [
    "C46_equilibrium_reproduced"
   ],
   "note": ""
  },
  {
   "property": "C47",
   "status": "proved",
   "theorems": [
    "C47_between_neighbours",
    "C47_at_nodes"
   ],
   "note": ""
  },
  {
   "property": "C48",
   "status": "proved",
   "theorems": [
    "C48_above_grid",
    "C48_above_grid_shape",
    "C48_above_grid_continuous",
    "C48_below_grid",
    "C48_equilibrium_ignores_table"
   ],
   "note": ""
  },
  {
   "property": "C49",
   "status": "proved",
   "theorems": [
    "C49_one_full_node_refuted",
    "C49_degenerate_fermion_refuted"
   ],
   "note": "REFUTED: the interpolated occupation between two f=1 points is 0, for every grid cell and mass."
  },
  {
   "property": "C50",
   "status": "proved",
   "theorems": [
    "C50_products",
    "C50_full_is_gain_minus_loss",
    "C50_linearisation",
    "C50_naive_split"
   ],
   "note": ""
  },
  {
   "property": "C51",
   "status": "proved",
   "theorems": [
    "C51_detailed_balance",
    "C51_sign_of_collision_term"
   ],
   "note": ""
  },
  {
   "property": "C52",
   "status": "proved",
   "theorems": [
    "C52_empty_state_is_not_depleted",
    "C52_full_fermion_state_is_not_filled",
    "C52_relaxation_is_damping"
   ],
   "note": ""
  },
  {
   "property": "C53",
   "status": "proved",
   "theorems": [
    "C53_negative_occupations_rejected",
    "C53_own_occupation_checked_only_by_creation",
    "C53_vacuum_kinds_never_fail"
   ],
   "note": ""
  },
  {
   "property": "C54",
   "status": "proved",
   "theorems": [
    "C54_forward_and_backward_cancel",
    "C54_same_side_participants_agree"
   ],
   "note": ""
  },
  {
   "property": "C55",
   "status": "proved",
   "theorems": [
    "C55_interval_meaning",
    "C55_phase_space_length",
    "C55_symmetric",
    "C55_nonnegative",
    "C55_positive_iff_polygon"
   ],
   "note": ""
  },
  {
   "property": "C56",
   "status": "proved",
   "theorems": [
    "C56_angular_integral",
    "C56_symmetric_in_pairs",
    "C56_documented_form",
    "C56_vanishes_outside"
   ],
   "note": ""
  },
  {
   "property": "C57",
   "status": "proved",
   "theorems": [
    "C57_angular_integral",
    "C57_symmetric"
   ],
   "note": ""
  },
  {
   "property": "C58",
   "status": "proved",
   "theorems": [
    "C58_kernel_nonnegative"
   ],
   "note": ""
  },
  {
   "property": "C59",
   "status": "proved",
   "theorems": [
    "C59_D1_limit",
    "C59_D2_limit",
    "C59_kernel_limit"
   ],
   "note": ""
  },
  {
   "property": "C60",
   "status": "proved",
   "theorems": [
    "C60_massless_mass_term_refuted",
    "C60_massless_mass_term"
   ],
   "note": "REFUTED: for a massless first particle inside the mass term the limit is 0 but the zero-momentum kernel is K2*m_j*(...), non-zero in general; C60_massless_mass_term gives both values, C59_kernel_limit covers massive particles and C102 massless ones outside the mass term"
  },
  {
   "property": "C61",
   "status": "proved",
   "theorems": [
    "C61_four_particle_cutoff",
    "C61_three_particle_cutoff",
    "C61_order_independent",
    "C61_three_particle_order_independent"
   ],
   "note": ""
  },
  {
   "property": "C62",
   "status": "proved",
   "theorems": [
    "C62_decay_covers",
    "C62_scattering_covers",
    "C62_creation_covers"
   ],
   "note": ""
  },
  {
   "property": "C63",
   "status": "proved",
   "theorems": [
    "C63_decay_limits_exact",
    "C63_creation_limits_exact",
    "C63_at_rest"
   ],
   "note": ""
  },
  {
   "property": "C64",
   "status": "proved",
   "theorems": [
    "C64_decay_schedule_independent",
    "C64_creation_schedule_independent",
    "C64_three_particle_schedule_independent",
    "C64_scattering_schedule_independent",
    "C64_exothermic_scattering",
    "C64_scattering_schedule_refuted"
   ],
   "note": "REFUTED (endothermic scattering): max_1 is firstprivate and is enlarged to 3*min_1 in the thread's copy, so later iterations of the same thread integrate further than they would on another thread. Decays, creations and all three-particle reactions are proved independent, and scattering whenever 3*min_1 stays within the grid."
  },
  {
   "property": "C65",
   "status": "proved",
   "theorems": [
    "C65_one_sided",
    "C65_same_rate",
    "C65_split_kinds",
    "C65_compiled_kinds",
    "C65_vacuum_kind_honoured_refuted",
    "C65_full_kind_honoured"
   ],
   "note": "REFUTED (Python layer): kind Full_vacuum_decay is integrated with the ordinary F_1/F_f functionals; the compiled layer honours every kind (C65_compiled_kinds)"
  },
  {
   "property": "C66",
   "status": "proved",
   "theorems": [
    "C66_charges_conserved",
    "C66_imbalance_preserved",
    "C66_majorana_charge_refuted"
   ],
   "note": "Proved when Majorana species carry no charge; C66_majorana_charge_refuted shows that the condition is needed."
  },
  {
   "property": "C67",
   "status": "proved",
   "theorems": [
    "C67_well_formed",
    "C67_each_particle_once",
    "C67_no_repetition"
   ],
   "note": ""
  },
  {
   "property": "C68",
   "status": "proved",
   "theorems": [
    "C68_complete"
   ],
   "note": ""
  },
  {
   "property": "C69",
   "status": "proved",
   "theorems": [
    "C69_no_impossible_decay",
    "C69_dropped_only_if_impossible"
   ],
   "note": ""
  },
  {
   "property": "C70",
   "status": "proved",
   "theorems": [
    "C70_crossing_symmetry"
   ],
   "note": ""
  },
  {
   "property": "C71",
   "status": "proved",
   "theorems": [
    "C71_no_duplicates",
    "C71_any_matrix_elements"
   ],
   "note": ""
  },
  {
   "property": "C72",
   "status": "proved",
   "theorems": [
    "C72_combined",
    "C72_amplitude_preserved",
    "C72_cross_generating"
   ],
   "note": ""
  },
  {
   "property": "C73",
   "status": "proved",
   "theorems": [
    "C73_mixed_refuted",
    "C73_three_particle_constants",
    "C73_four_particle_constant_refuted",
    "C73_zero_constant_refuted"
   ],
   "note": "REFUTED: merging constant four-particle matrix elements loses the second constant, merging a constant with a momentum-dependent element loses one of them (C73_mixed_refuted) and a vanishing three-particle constant raises AttributeError; positive three-particle constants do add up (C73_three_particle_constants)."
  },
  {
   "property": "C74",
   "status": "proved",
   "theorems": [
    "C74_default_order",
    "C74_foreign_order",
    "C74_short_order",
    "C74_order_validated",
    "C74_pairs_unordered"
   ],
   "note": ""
  },
  {
   "property": "C75",
   "status": "proved",
   "theorems": [
    "C75_classification",
    "C75_out_of_equilibrium",
    "C75_monotone"
   ],
   "note": ""
  },
  {
   "property": "C76",
   "status": "proved",
   "theorems": [
    "C76_fresh",
    "C76_frozen_values",
    "C76_irreversible",
    "C76_decoupling_update"
   ],
   "note": ""
  },
  {
   "property": "C77",
   "status": "proved",
   "theorems": [
    "C77_special_values",
    "C77_fast_decay_values",
    "C77_fast_decay_history",
    "C77_equilibrium_untouched",
    "C77_infinite_rejected",
    "C77_new_value",
    "C77_nonnegative_forever"
   ],
   "note": ""
  },
  {
   "property": "C78",
   "status": "proved",
   "theorems": [
    "C78_counted_once",
    "C78_eligibility"
   ],
   "note": ""
  },
  {
   "property": "C79",
   "status": "proved",
   "theorems": [
    "C79_condition",
    "C79_remaining_fraction",
    "C79_stable_particle_refuted",
    "C79_flagged",
    "C79_permanent",
    "C79_flag_never_cleared"
   ],
   "note": "the documented condition holds as stated; REFUTED side claim: a stable massive particle is flagged as decayed once the scale factor is large enough (C79_stable_particle_refuted)"
  },
  {
   "property": "C80",
   "status": "proved",
   "theorems": [
    "C80_free_streaming",
    "C80_massless_pressure"
   ],
   "note": ""
  },
  {
   "property": "C81",
   "status": "proved",
   "theorems": [
    "C81_number_density",
    "C81_equation_of_state",
    "C81_statistics",
    "C81_denominator_is_heat_capacity"
   ],
   "note": ""
  },
  {
   "property": "C82",
   "status": "proved",
   "theorems": [
    "C82_dust",
    "C82_density_decreases_to_zero"
   ],
   "note": ""
  },
  {
   "property": "C83",
   "status": "proved",
   "theorems": [
    "C83_inequalities",
    "C83_entropy"
   ],
   "note": ""
  },
  {
   "property": "C84",
   "status": "proved",
   "theorems": [
    "C84_first_law"
   ],
   "note": "Continuous-time identity for the quantities the code computes, with one quadrature over comoving momenta; radiation, intermediate and non-equilibrium species. The dust regime (non-relativistic closed forms) satisfies it only approximately and is excluded."
  },
  {
   "property": "C85",
   "status": "proved",
   "theorems": [
    "C85_branches_agree",
    "C85_substitution",
    "C85_integrals"
   ],
   "note": ""
  },
  {
   "property": "C86",
   "status": "proved",
   "theorems": [
    "C86_detailed_balance",
    "C86_detailed_balance_totals"
   ],
   "note": ""
  },
  {
   "property": "C87",
   "status": "proved",
   "theorems": [
    "C87_comoving",
    "C87_value",
    "C87_rates_well_defined",
    "C87_empty_window",
    "C87_below_threshold",
    "C87_above_threshold",
    "C87_uninitialised"
   ],
   "note": ""
  },
  {
   "property": "C88",
   "status": "proved",
   "theorems": [
    "C88_matter_parameters",
    "C88_no_matter",
    "C88_vacuum_limit",
    "C88_shape_mismatch",
    "C88_pattern",
    "C88_averaged_probabilities",
    "C88_survival",
    "C88_matter",
    "C88_mixing_conserves"
   ],
   "note": ""
  },
  {
   "property": "C89",
   "status": "proved",
   "theorems": [
    "C89_snapshot",
    "C89_order",
    "C89_only_below_decoupling",
    "C89_unknown_flavour"
   ],
   "note": ""
  },
  {
   "property": "C90",
   "status": "proved",
   "theorems": [
    "C90_four_particle_partition",
    "C90_four_particle_covers",
    "C90_three_particle_partition",
    "C90_three_particle_covers",
    "C90_three_particle_skip",
    "C90_reaction_types"
   ],
   "note": ""
  },
  {
   "property": "C91",
   "status": "proved",
   "theorems": [
    "C91_one_point",
    "C91_zero_shape",
    "C91_fast",
    "C91_refuted",
    "C91_three_particle"
   ],
   "note": "REFUTED: for every vector with at least two elements the truth test of an array raises ValueError, so every non-Full kind of the 4-particle integral fails; the 3-particle integral catches the exception and returns the vector."
  },
  {
   "property": "C92",
   "status": "proved",
   "theorems": [
    "C92_refuted",
    "C92_number_balance"
   ],
   "note": "REFUTED: reaction_type is given the reaction (a list) instead of the integral: AttributeError for every non-empty list of integrals. C92_number_balance states what the function would compute otherwise."
  },
  {
   "property": "C93",
   "status": "proved",
   "theorems": [
    "C93_energy",
    "C93_symmetric",
    "C93_massless",
    "C93_forbidden"
   ],
   "note": ""
  },
  {
   "property": "C94",
   "status": "proved",
   "theorems": [
    "C94_relativistic",
    "C94_scales",
    "C94_refuted",
    "C94_degrees",
    "C94_temperature",
    "C94_at_least_mass",
    "C94_zero_angle"
   ],
   "note": "REFUTED in part: above the QCD scale 61.75 is overwritten by 10.75; the clipping of the temperature holds as stated."
  },
  {
   "property": "C95",
   "status": "proved",
   "theorems": [
    "C95_freeze",
    "C95_below",
    "C95_estimate",
    "C95_monitor_refuted",
    "C95_never_estimates_refuted",
    "C95_monitor_intended",
    "C95_intended_total",
    "C95_recorded_once"
   ],
   "note": "REFUTED: the code slices a numpy dtype (dtype[-6:]) and raises TypeError as soon as kawano data exist and the neutrons have not decoupled; so the decoupling and the estimates are never recorded. The claim is proved for the monitor with the columns read as intended."
  },
  {
   "property": "C96",
   "status": "proved",
   "theorems": [
    "C96_accepted_value",
    "C96_kind_validation"
   ],
   "note": ""
  },
  {
   "property": "C97",
   "status": "proved",
   "theorems": [
    "C97_density",
    "C97_no_reaction",
    "C97_number",
    "C97_zero",
    "C97_untouched",
    "C97_matching",
    "C97_unmatched"
   ],
   "note": ""
  },
  {
   "property": "C98",
   "status": "proved",
   "theorems": [
    "C98_initial_time_is_half_hubble_time",
    "C98_initial_time_satisfies_radiation_age"
   ],
   "note": ""
  },
  {
   "property": "C99",
   "status": "proved",
   "theorems": [
    "C99_history_exported_when_kawano_fails_refuted",
    "C99_kawano_failure_skips_the_export"
   ],
   "note": "REFUTED: export() runs the KAWANO program before writing evolution.txt; a failure there propagates and the final history is never written."
  },
  {
   "property": "C100",
   "status": "proved",
   "theorems": [
    "C100_split_run_equals_single_run_refuted",
    "C100_split_run_repeats_a_row",
    "C100_no_kawano_steps_after_an_export"
   ],
   "note": "REFUTED: the second call records the current state again, so one row (and one multistep derivative) is duplicated; proved in general. With KAWANO, export() also closes the table that later cold steps write to: a further run raises ValueError at its first such step (C100_no_kawano_steps_after_an_export)."
  },
  {
   "property": "C101",
   "status": "proved",
   "theorems": [
    "C101_python_and_cpp_lookup_agree"
   ],
   "note": ""
  },
  {
   "property": "C102",
   "status": "proved",
   "theorems": [
    "C102_massless_kernel_limit"
   ],
   "note": ""
  },
  {
   "property": "C103",
   "status": "proved",
   "theorems": [
    "C103_decay_limits_ordered",
    "C103_scattering_limits_ordered"
   ],
   "note": ""
  },
  {
   "property": "C104",
   "status": "proved",
   "theorems": [
    "C104_explicit_interaction_refuted",
    "C104_class_attribute"
   ],
   "note": "REFUTED: the constructor ignores its argument and iterates the class attribute, so Interaction(...) always raises TypeError; a subclass' class attribute is deduplicated (C104_class_attribute)."
  },
  {
   "property": "C105",
   "status": "proved",
   "theorems": [
    "C105_equilibrium_value",
    "C105_zero_temperature",
    "C105_stored_values",
    "C105_stored_distribution_lags",
    "C105_current_temperature_refuted"
   ],
   "note": "REFUTED: update() rebuilds the array before it refreshes aT, so the array belongs to the previous aT (C105_stored_distribution_lags); at the decoupling update it is rebuilt with the right aT (C76_decoupling_update)."
  },
  {
   "property": "C107",
   "status": "proved",
   "theorems": [
    "C107_linear_mode_defect",
    "C107_linear_mode_refuted"
   ],
   "note": "REFUTED: with linear steps the collision integral is already divided by x when it is computed, and NonEqParticle.numerator divides by x again; C107_linear_mode_defect gives the exact energy defect, C107_linear_mode_refuted a state where it is non-zero."
  },
  {
   "property": "C108",
   "status": "proved",
   "theorems": [
    "C108_default_call_refuted",
    "C108_when_callable",
    "C108_universe_call"
   ],
   "note": "REFUTED: the defaults are MSW=None with matter_effects=True, so the call without arguments (as in several bundled scripts) raises TypeError. Characterised exactly: a pattern is returned iff matter effects are off or both parameters are given; through the universe only a missing particle fails."
  },
  {
   "property": "C109",
   "status": "proved",
   "theorems": [
    "C109_summed_change",
    "C109_partial_decoupling_refuted"
   ],
   "note": "REFUTED: mixing starts when any flavour is below its decoupling temperature, but flavours still in equilibrium ignore their integral, so their share is lost. Proved when all flavours have left equilibrium."
  },
  {
   "property": "C110",
   "status": "proved",
   "theorems": [
    "C110_forbidden",
    "C110_bounds",
    "C110_no_allowed_point_dropped"
   ],
   "note": ""
  },
  {
   "property": "C111",
   "status": "proved",
   "theorems": [
    "C111_kept",
    "C111_creation",
    "C111_short",
    "C111_bound",
    "C111_no_allowed_point_dropped",
    "C111_forbidden"
   ],
   "note": ""
  },
  {
   "property": "C112",
   "status": "proved",
   "theorems": [
    "C112_neutrino_resolution",
    "C112_meson_resolution",
    "C112_heaviest_lighter",
    "C112_refuted",
    "C112_resolutions"
   ],
   "note": "REFUTED at mass exactly equal to the neutral pion mass (index -1 wraps to the heaviest meson); holds for every larger mass."
  },
  {
   "property": "C113",
   "status": "proved",
   "theorems": [
    "C113_short",
    "C113_four",
    "C113_three",
    "C113_no_charge"
   ],
   "note": ""
  },
  {
   "property": "C114",
   "status": "proved",
   "theorems": [
    "C114_scattering",
    "C114_three_exact",
    "C114_never_fails",
    "C114_four_creation",
    "C114_four_decay",
    "C114_scattering_kept",
    "C114_three"
   ],
   "note": ""
  },
  {
   "property": "C115",
   "status": "proved",
   "theorems": [
    "C115_HNL_grid"
   ],
   "note": ""
  },
  {
   "property": "C116",
   "status": "proved",
   "theorems": [
    "C116_neutrino_charge",
    "C116_neutrino_flavour",
    "C116_neutrino_reactions",
    "C116_sterile_charge",
    "C116_quark_charge",
    "C116_hadron_charge",
    "C116_sterile_lepton_number"
   ],
   "note": ""
  },
  {
   "property": "C117",
   "status": "proved",
   "theorems": [
    "C117_lepton_scattering",
    "C117_exactly_four_violate",
    "C117_kaon_refuted",
    "C117_baryon_refuted"
   ],
   "note": "REFUTED: K->3pi, K_L->pi e nu, K_L->pi mu nu, omega->pi pi pi0 and beta decay violate charge; C117_exactly_four_violate shows that all other decays conserve it."
  },
  {
   "property": "C118",
   "status": "proved",
   "theorems": [
    "C118_who_leads",
    "C118_conjugates_replenish",
    "C118_forgotten_products_refuted"
   ],
   "note": "REFUTED: C118_forgotten_products_refuted characterises the ten products without a creation integral; C118_conjugates_replenish is what holds when the conjugate is included."
  },
  {
   "property": "C119",
   "status": "proved",
   "theorems": [
    "C119_copies",
    "C119_whole_chain",
    "C119_once_if_ordered",
    "C119_once_refuted"
   ],
   "note": "REFUTED: [rho+-; pi+-] includes the pion decay twice; C119_copies gives the exact number, C119_once_if_ordered the condition."
  },
  {
   "property": "C120",
   "status": "proved",
   "theorems": [
    "C120_found",
    "C120_sums",
    "C120_exhaustive_refuted",
    "C120_tau_refuted"
   ],
   "note": "REFUTED in part: kaon ratios sum to 0.94883 and tau has no table; the lookups themselves (C120_found) and the bound (C120_sums) hold."
  },
  {
   "property": "C121",
   "status": "proved",
   "theorems": [
    "C121_scatterings_once",
    "C121_charged_currents"
   ],
   "note": ""
  },
  {
   "property": "C126",
   "status": "proved",
   "theorems": [
    "C126_scattering_disjoint",
    "C126_decay_products"
   ],
   "note": ""
  },
  {
   "property": "C122",
   "status": "proved",
   "theorems": [
    "C122_scalars",
    "C122_pions",
    "C122_neutral_pion",
    "C122_vectors",
    "C122_vectors_refuted"
   ],
   "note": "REFUTED for vector mesons: C122_vectors_refuted shows the constant is negative whenever the meson is heavier than the sterile neutrino (plus lepton); C122_scalars, C122_pions, C122_neutral_pion and C122_vectors are what holds."
  },
  {
   "property": "C123",
   "status": "proved",
   "theorems": [
    "C123_charged",
    "C123_neutral",
    "C123_quadratic",
    "C123_flavour_refuted",
    "C123_no_neutrinos",
    "C123_unknown_vector"
   ],
   "note": "REFUTED: charged vector mesons use the angle of the last neutrino (C123_charged, C123_flavour_refuted); scalar and neutral mesons are right (C123_neutral, C123_quadratic); without neutrinos UnboundLocalError."
  },
  {
   "property": "C124",
   "status": "proved",
   "theorems": [
    "C124_places",
    "C124_sterile",
    "C124_active",
    "C124_active_refuted"
   ],
   "note": "REFUTED: the active interaction has g_L and g_R exchanged (C124_active, C124_active_refuted); C124_sterile is right."
  },
  {
   "property": "C127",
   "status": "proved",
   "theorems": [
    "C127_standard",
    "C127_sterile",
    "C127_quarks",
    "C127_baryons",
    "C127_covers"
   ],
   "note": ""
  },
  {
   "property": "C129",
   "status": "proved",
   "theorems": [
    "C129_default_attributes_refuted",
    "C129_otherwise_constructed"
   ],
   "note": "REFUTED: _defaults has no Q, and update() reads self.Q for every species with thermal_dyn=False, so such a species raises AttributeError while being constructed. C129_otherwise_constructed: all other configurations succeed."
  },
  {
   "property": "C130",
   "status": "proved",
   "theorems": [
    "C130_momenta4",
    "C130_momenta3",
    "C130_threshold",
    "C130_value4",
    "C130_value3"
   ],
   "note": ""
  },
  {
   "property": "C131",
   "status": "proved",
   "theorems": [
    "C131_equilibrium4",
    "C131_equilibrium3"
   ],
   "note": ""
  },
  {
   "property": "C128",
   "status": "proved",
   "theorems": [
    "C128_measured",
    "C128_metre_refuted",
    "C128_consistent_up_to_2pi"
   ],
   "note": "REFUTED: UNITS.m uses hc instead of hbar c, so the metre is too short by 2 pi and inconsistent with s, N, g_cm3 and G (C128_metre_refuted); up to that factor all relations hold (C128_consistent_up_to_2pi)."
  },
  {
   "property": "C132",
   "status": "proved",
   "theorems": [
    "C132_units_follow",
    "C132_reset_is_exact",
    "C132_constants_stale",
    "C132_constants_follow_refuted",
    "C132_recomputed_constants"
   ],
   "note": "REFUTED for the constants: CONST is evaluated once at import and never follows a reset (C132_constants_follow_refuted, C132_constants_stale); the units do follow (C132_units_follow, C132_reset_is_exact) and recomputed constants would be right (C132_recomputed_constants)."
  },
  {
   "property": "C133",
   "status": "proved",
   "theorems": [
    "C133_decay_rate",
    "C133_whole_grid",
    "C133_constants_length"
   ],
   "note": ""
  },
  {
   "property": "C134",
   "status": "proved",
   "theorems": [
    "C134_first_entry",
    "C134_any_momenta_refuted"
   ],
   "note": "REFUTED: the first entry is multiplied by the rest-frame constant even when the first momentum is not zero (C134_any_momenta_refuted); it is then wrong by the factor (2 (aT/a) / m)^2 (C134_first_entry)."
  },
  {
   "property": "C135",
   "status": "proved",
   "theorems": [
    "C135_three_particles",
    "C135_four_particles"
   ],
   "note": ""
  },
  {
   "property": "C136",
   "status": "proved",
   "theorems": [
    "C136_constant_amplitude_refuted",
    "C136_constant_amplitude_weight"
   ],
   "note": "REFUTED: a constant squared amplitude enters the integrand without the phase-space factor D1 and without the division by p0 E0, so participants disagree on the weight of the event by the ratio of their p E (C136_constant_amplitude_refuted, C136_constant_amplitude_weight)."
  },
  {
   "property": "C137",
   "status": "proved",
   "theorems": [
    "C137_unit_independent",
    "C137_constant_amplitude",
    "C137_unit_independent_3",
    "C137_unit_independent_refuted",
    "C137_linear",
    "C137_coupling"
   ],
   "note": "REFUTED: for four-particle matrix elements with a constant squared amplitude the result scales with the third power of the unit (C137_constant_amplitude, C137_unit_independent_refuted); it holds for all other matrix elements and for three-particle integrals"
  },
  {
   "property": "C138",
   "status": "proved",
   "theorems": [
    "C138_three_body_rate",
    "C138_muon_rate",
    "C138_constant_amplitude",
    "C138_constant_amplitude_refuted"
   ],
   "note": "REFUTED: for constant squared amplitudes the rate is off by m (aT/a)^3 (C138_constant_amplitude, C138_constant_amplitude_refuted); it holds for amplitudes bilinear in four-momentum products"
  },
  {
   "property": "C139",
   "status": "proved",
   "theorems": [
    "C139_three_body",
    "C139_three_body_table",
    "C139_names",
    "C139_no_name",
    "C139_table",
    "C139_widths",
    "C139_rates",
    "C139_muon"
   ],
   "note": "For three bodies the width is the textbook one: the four-particle integral of the code multiplies a constant amplitude by m (aT/a)^3 (C178_constant_amplitude), so its value agrees with the textbook only where that factor is one."
  },
  {
   "property": "C140",
   "status": "proved",
   "theorems": [
    "C140_charged_scalar",
    "C140_charged_vector",
    "C140_charged_content",
    "C140_kaon",
    "C140_charged_refuted",
    "C140_arrays"
   ],
   "note": "REFUTED: decays into charged kaons use V_ud instead of V_us, a rate (974/225)^2 = 18.7 times as large (C140_kaon, C140_charged_refuted); it holds for pions, and for rho mesons with the mixing angle of C123"
  },
  {
   "property": "C141",
   "status": "proved",
   "theorems": [
    "C141_neutral_scalar",
    "C141_neutral_vector",
    "C141_pion_rho",
    "C141_omega_phi",
    "C141_neutral_kaons",
    "C141_neutral_refuted"
   ],
   "note": "REFUTED: the rates into omega and phi are four and two times as large as their quark content gives, and neutral kaons are produced by a neutral current that conserves flavour (C141_omega_phi, C141_neutral_kaons, C141_neutral_refuted); it holds for pions and rho mesons"
  },
  {
   "property": "C142",
   "status": "proved",
   "theorems": [
    "C142_dirac",
    "C142_electrons_refuted",
    "C142_majorana_refuted",
    "C142_refuted"
   ],
   "note": "REFUTED: for Majorana sterile neutrinos one N is lost for every two sets of products created (except muon and tau pairs of neutral currents); for Dirac ones electrons of the neutral-current channel are created twice as often. C142_dirac proves conservation in every other Dirac channel."
  },
  {
   "property": "C143",
   "status": "proved",
   "theorems": [
    "C143_energy_refuted",
    "C143_refuted"
   ],
   "note": "REFUTED: only 19/20 of the energy arrives for N -> a b anti-b with a and b of different flavour and 9/10 for equal flavours (twice as much for a Majorana N): the pair is filled from the spectrum of one of its members, which takes 3/10 of the mass where the other takes 7/20."
  },
  {
   "property": "C144",
   "status": "proved",
   "theorems": [
    "C144_dirac_leptons",
    "C144_majorana_refuted",
    "C144_quarks_refuted",
    "C144_library"
   ],
   "note": "REFUTED: a Majorana sterile neutrino decays at the Dirac rate, half of the textbook; channels with quarks lack the factor 3 of colours. C144_dirac_leptons proves the textbook widths for all leptonic channels of a Dirac sterile neutrino."
  },
  {
   "property": "C145",
   "status": "proved",
   "theorems": [
    "C145_free_neutron",
    "C145_blocking"
   ],
   "note": ""
  },
  {
   "property": "C146",
   "status": "proved",
   "theorems": [
    "C146_identified",
    "C146_states",
    "C146_consistent",
    "C146_charges",
    "C146_proton_refuted",
    "C146_masses",
    "C146_distinct",
    "C146_plasma",
    "C146_short_lived"
   ],
   "note": "REFUTED: the proton of the table has charge -1 (C146_proton_refuted); everything else holds"
  },
  {
   "property": "C147",
   "status": "proved",
   "theorems": [
    "C147_widths",
    "C147_balance",
    "C147_lifetimes"
   ],
   "note": ""
  },
  {
   "property": "C148",
   "status": "proved",
   "theorems": [
    "C148_units",
    "C148_constants",
    "C148_gravity",
    "C148_electroweak",
    "C148_ckm",
    "C148_hierarchy",
    "C148_matter",
    "C148_decay_constants",
    "C148_isospin",
    "C148_one_table"
   ],
   "note": ""
  },
  {
   "property": "C149",
   "status": "proved",
   "theorems": [
    "C149_entropy",
    "C149_blocking_needed"
   ],
   "note": ""
  },
  {
   "property": "C150",
   "status": "proved",
   "theorems": [
    "C150_table",
    "C150_complete",
    "C150_once"
   ],
   "note": ""
  },
  {
   "property": "C151",
   "status": "proved",
   "theorems": [
    "C151_reciprocity",
    "C151_weight",
    "C151_rates",
    "C151_energy",
    "C151_once"
   ],
   "note": ""
  },
  {
   "property": "C152",
   "status": "proved",
   "theorems": [
    "C152_found",
    "C152_rates",
    "C152_refuted"
   ],
   "note": "REFUTED: the equation of N and that of nu_a contain both terms of the amplitude (N with weight 1 if it is Majorana and 2 otherwise, nu_a with weight 2), that of nu_b only one of them on each side, so that e.g. backward scattering changes the total energy; C152_refuted shows this for every sterile neutrino, mixing and pair of flavours, C152_rates gives the rates the code uses, C152_found that the event and the four integrals exist. For the interactions of leptons and active neutrinos the same statement holds (C151_energy)."
  },
  {
   "property": "C153",
   "status": "proved",
   "theorems": [
    "C153_shapes",
    "C153_exact",
    "C153_nodes"
   ],
   "note": ""
  },
  {
   "property": "C154",
   "status": "proved",
   "theorems": [
    "C154_radau",
    "C154_lobatto",
    "C154_short"
   ],
   "note": ""
  },
  {
   "property": "C155",
   "status": "proved",
   "theorems": [
    "C155_refuted",
    "C155_last_only"
   ],
   "note": "REFUTED: alphar = alpha is an alias, not a copy, so radau overwrites the last entry of the caller's alpha and lobatto the last entries of alpha and beta (C155_refuted). C155_last_only: nothing but the last entries changes, radau leaves beta alone, and a further radau on the overwritten array gives the right rule."
  },
  {
   "property": "C156",
   "status": "proved",
   "theorems": [
    "C156_coefficients",
    "C156_errors"
   ],
   "note": ""
  },
  {
   "property": "C157",
   "status": "proved",
   "theorems": [
    "C157_gauss",
    "C157_gauss01"
   ],
   "note": ""
  },
  {
   "property": "C158",
   "status": "proved",
   "theorems": [
    "C158_orthonormal",
    "C158_short",
    "C158_no_alpha",
    "C158_refuted",
    "C158_python3",
    "C158_values"
   ],
   "note": "REFUTED: they use xrange and reduce, which Python 3 does not have (C158_refuted). C158_python3 says exactly when: polyval always, rec_jaclog always, jacobi and mm_log from N=2, jacobiD from N=3. C158_values: where the built-ins exist, polyval gives the monic polynomials of its coefficients and jacobi positive multiples of those of rec_jacobi."
  },
  {
   "property": "C159",
   "status": "proved",
   "theorems": [
    "C159_derivative",
    "C159_refuted",
    "C159_scale"
   ],
   "note": "REFUTED for NOPT=2: jacobiD normalises the polynomials with raised parameters by their own norm, so the columns are off by a constant factor (C159_refuted, at N=1, a=b=0). C159_scale gives the factor for every column. C159_derivative: for NOPT=1 the claim holds for all N, a, b, x."
  },
  {
   "property": "C160",
   "status": "proved",
   "theorems": [
    "C160_exponents",
    "C160_one_point",
    "C160_refuted",
    "C160_orders"
   ],
   "note": "REFUTED: for N=1 rec_jacobi returns bare numbers, which rec_jacobi01 and gauss cannot index: IndexError (C160_refuted). C160_orders gives the outcome for every order: ValueError below one, N coefficients from two; rec_jacobi itself does not check N and returns arrays of different lengths below one."
  },
  {
   "property": "C161",
   "status": "proved",
   "theorems": [
    "C161_kawano_table_reads_back",
    "C161_other_numbers_of_rates"
   ],
   "note": ""
  },
  {
   "property": "C162",
   "status": "proved",
   "theorems": [
    "C162_savetxt_reads_back"
   ],
   "note": ""
  },
  {
   "property": "C163",
   "status": "proved",
   "theorems": [
    "C163_import_data_raises",
    "C163_import_data_reads_the_table_refuted",
    "C163_names_as_keys_would_read_the_table"
   ],
   "note": "REFUTED: import_data uses the entries of the heading, which are lists, as dictionary keys, so it raises TypeError on every table with a data line (ValueError if the first field is not a number); C163_names_as_keys_would_read_the_table shows that the same reader keyed by the column names returns the saved rows."
  },
  {
   "property": "C164",
   "status": "proved",
   "theorems": [
    "C164_same",
    "C164_reciprocity",
    "C164_weight",
    "C164_rates",
    "C164_energy",
    "C164_majorana_refuted",
    "C164_events"
   ],
   "note": "REFUTED for Majorana sterile neutrinos (C164_majorana_refuted): the other three participants change by twice what the sterile neutrino changes by, so every event of non-zero rate changes the total energy. Proved for Dirac ones."
  },
  {
   "property": "C165",
   "status": "proved",
   "theorems": [
    "C165_lost",
    "C165_refuted",
    "C165_electrons"
   ],
   "note": "REFUTED for muons and taus (C165_refuted): the scattering is in the equation of the sterile neutrino with non-zero weight (C165_lost), but no integral of the neutrino or of the charged lepton is about it. For electrons all four equations have it (C165_electrons)."
  },
  {
   "property": "C166",
   "status": "proved",
   "theorems": [
    "C166_view",
    "C166_bounded",
    "C166_opacity",
    "C166_fade_refuted"
   ],
   "note": "REFUTED: the last sentence. A curve that follows a removed one is skipped: from the fourteenth update on every update leaves the oldest remaining curve undimmed. The rest holds for every number of updates."
  },
  {
   "property": "C167",
   "status": "proved",
   "theorems": [
    "C167_limits",
    "C167_zero",
    "C167_negative_refuted"
   ],
   "note": "Positive values are necessary: C167_negative_refuted shows a negative value put outside the limits by its own update."
  },
  {
   "property": "C168",
   "status": "proved",
   "theorems": [
    "C168_monitors",
    "C168_one_refuted",
    "C168_history"
   ],
   "note": "REFUTED for a list of one particle: subplots returns a one-dimensional array, the monitor gets one axes object and raises TypeError; the empty list raises ValueError. With two or more particles the claim holds."
  },
  {
   "property": "C169",
   "status": "proved",
   "theorems": [
    "C169_rows",
    "C169_last_refuted",
    "C169_slow_refuted",
    "C169_restart",
    "C169_unchanged"
   ],
   "note": "REFUTED: the rows plotted are those that were not the last row at any reading, each once (C169_rows); the last row is never shown, and a file read after every new row shows nothing. Restart and unchanged files behave as stated."
  },
  {
   "property": "C170",
   "status": "proved",
   "theorems": [
    "C170_restored",
    "C170_exception_refuted",
    "C170_benchmark",
    "C170_name_refuted"
   ],
   "note": "REFUTED for bodies that raise: printoptions then leaves the options as they are inside (C170_exception_refuted). A benchmark name that raises hides the outcome of the body. Otherwise the claim holds."
  },
  {
   "property": "C171",
   "status": "proved",
   "theorems": [
    "C171_tee",
    "C171_isolated_refuted",
    "C171_flags",
    "C171_redirect_refuted",
    "C171_redirect"
   ],
   "note": "REFUTED: the last sentence. The logs of all earlier Universes receive the output of later ones, and assigning sys.stdout while a Logger that nothing else refers to is installed is undone by its finaliser. The first sentence is proved."
  },
  {
   "property": "C172",
   "status": "proved",
   "theorems": [
    "C172_ensure_dir",
    "C172_blocked",
    "C172_file_refuted",
    "C172_bare_refuted",
    "C172_universe",
    "C172_kept_refuted",
    "C172_universe_blocked"
   ],
   "note": "REFUTED: the last sentence. A plain file at the path is accepted by ensure_dir, a bare file name makes ensure_path raise FileNotFoundError, and a second Universe with the same folder removes all earlier results. The rest is proved."
  },
  {
   "property": "C173",
   "status": "proved",
   "theorems": [
    "C173_second_order",
    "C173_fermions",
    "C173_linear",
    "C173_linear_refuted"
   ],
   "note": "REFUTED: the last sentence. linear_interpolation continues the line of the next cell (C42); its error is at most M/2 times the product of the distances to the next two nodes (C173_linear), up to eight times the usual bound (C173_linear_refuted). The rest is proved."
  },
  {
   "property": "C174",
   "status": "proved",
   "theorems": [
    "C174_result",
    "C174_failures",
    "C174_stale_refuted",
    "C174_fresh",
    "C174_command",
    "C174_menu"
   ],
   "note": "REFUTED: the last sentence. The exit status is not looked at, so output of an earlier run is returned when the program fails without touching it (C174_stale_refuted); in the folder of a new Universe this cannot happen (C174_fresh). The rest is proved."
  },
  {
   "property": "C175",
   "status": "proved",
   "theorems": [
    "C175_energy",
    "C175_massless",
    "C175_density",
    "C175_density_refuted",
    "C175_statistics",
    "C175_switch"
   ],
   "note": "REFUTED: the last sentence. The closed form writes 1.2 for zeta(3) and is too small by between 0.15 and 0.19 per cent at every temperature (C175_density, C175_density_refuted). The rest is proved, for the exact integrals (not for the quadrature rule)."
  },
  {
   "property": "C176",
   "status": "proved",
   "theorems": [
    "C176_detailed_balance",
    "C176_comoving_values",
    "C176_equilibrium",
    "C176_ratio",
    "C176_decoupled",
    "C176_flag",
    "C176_massive",
    "C176_curve",
    "C176_equilibration",
    "C176_abundance",
    "C176_comoving"
   ],
   "note": ""
  },
  {
   "property": "C177",
   "status": "proved",
   "theorems": [
    "C177_moments",
    "C177_numbers",
    "C177_refuted",
    "C177_coefficients",
    "C177_gauss"
   ],
   "note": "REFUTED: with a whole number that is not an int (a = 1.0, or a numpy integer) every entry after the first a + 1 is 0 * inf = nan (C177_refuted, C177_numbers). Everything else holds: C177_moments, C177_coefficients, C177_gauss. These need Python 2's reduce; on Python 3 the functions raise NameError from N = 1 of rec_jaclog on (C158)."
  },
  {
   "property": "C178",
   "status": "proved",
   "theorems": [
    "C178_massive_rate",
    "C178_rate_exists",
    "C178_constant_amplitude",
    "C178_muon_rate"
   ],
   "note": "Generalises C138 to massive products. The Dalitz region, kinematics and rate are in MassiveSpec.v, independent of the model."
  },
  {
   "property": "C179",
   "status": "proved",
   "theorems": [
    "C179_massive_kind",
    "C179_lookup",
    "C179_massless_kind",
    "C179_coefficient",
    "C179_full",
    "C179_massless_empty"
   ],
   "note": "GSL's quadrature enters by its documented contract (DESIGN.md, trusted base); the sampled inner integrals are taken to be integrable."
  },
  {
   "property": "C180",
   "status": "proved",
   "theorems": [
    "C180_unresolved",
    "C180_relative_refuted"
   ],
   "note": "REFUTED: C180_relative_refuted; C180_unresolved gives every case in which zero is an acceptable result, C179 the bound that does hold."
  },
  {
   "property": "C181",
   "status": "proved",
   "theorems": [
    "C181_three_particles",
    "C181_unresolved",
    "C181_one_percent_refuted"
   ],
   "note": "REFUTED: C181_one_percent_refuted; C181_three_particles is the bound that holds."
  },
  {
   "property": "C182",
   "status": "proved",
   "theorems": [
    "C182_defined",
    "C182_converges",
    "C182_linear_offset",
    "C182_log_drift",
    "C182_second_order_refuted"
   ],
   "note": "REFUTED: C182_second_order_refuted; C182_converges is the first-order bound that holds, C182_linear_offset and C182_log_drift the exact errors for a constant slope. The sum of numerators over denominators is a function of x and aT in the model, as it is when all species are in equilibrium."
  },
  {
   "property": "C183",
   "status": "proved",
   "theorems": [
    "C183_steps",
    "C183_bracket",
    "C183_radiation",
    "C183_radiation_log",
    "C183_recorded_density",
    "C183_accurate_refuted"
   ],
   "note": "REFUTED: C183_accurate_refuted (dy = 0.05) and C183_recorded_density; C183_bracket, C183_radiation and C183_radiation_log are the bounds and the exact value that hold."
  },
  {
   "property": "C184",
   "status": "proved",
   "theorems": [
    "C184_bracket",
    "C184_radiation",
    "C184_consistent_refuted",
    "C184_columns"
   ],
   "note": "REFUTED: C184_consistent_refuted; C184_bracket and C184_radiation are the bounds and the exact values that hold."
  },
  {
   "property": "C185",
   "status": "proved",
   "theorems": [
    "C185_halving",
    "C185_adaptive"
   ],
   "note": ""
  },
  {
   "property": "C186",
   "status": "proved",
   "theorems": [
    "C186_success_refuted",
    "C186_outcome"
   ],
   "note": "REFUTED: C186_success_refuted gives the integrand; C186_outcome says what is returned, C185 when it is accurate."
  },
  {
   "property": "C187",
   "status": "proved",
   "theorems": [
    "C187_rounded_nodes",
    "C187_rounded_calls",
    "C187_calls",
    "C187_transparent"
   ],
   "note": ""
  },
  {
   "property": "C188",
   "status": "proved",
   "theorems": [
    "C188_exact",
    "C188_not_quartic",
    "C188_relations",
    "C188_brackets"
   ],
   "note": ""
  },
  {
   "property": "C189",
   "status": "proved",
   "theorems": [
    "C189_draws",
    "C189_table",
    "C189_formulas",
    "C189_detects",
    "C189_reset",
    "C189_range"
   ],
   "note": ""
  },
  {
   "property": "C190",
   "status": "proved",
   "theorems": [
    "C190_relations",
    "C190_lightyear"
   ],
   "note": "The relations with pi use 3.1415 < pi < 3.1416, hence their wider tolerances."
  }
 ]
}