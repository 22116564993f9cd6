{
 "claims": [
  {
   "property": "C01",
   "status": "proved",
   "theorems": [
    "C01_run_terminates",
    "C01_generation_bound",
    "C01_never_stops_at_size_max_refuted"
   ],
   "note": "Terminates within maxGenerations+1 rounds; the SIZE_MAX corner is refuted separately."
  },
  {
   "property": "C02",
   "status": "proved",
   "theorems": [
    "C02_stop_rule_exact"
   ],
   "note": ""
  },
  {
   "property": "C03",
   "status": "proved",
   "theorems": [
    "C03_record_per_round"
   ],
   "note": ""
  },
  {
   "property": "C04",
   "status": "proved",
   "theorems": [
    "C04_sequential_evaluation",
    "C04_schedule_independent"
   ],
   "note": ""
  },
  {
   "property": "C05",
   "status": "proved",
   "theorems": [
    "C05_crossover"
   ],
   "note": ""
  },
  {
   "property": "C06",
   "status": "proved",
   "theorems": [
    "C06_mutation",
    "C06_initialize"
   ],
   "note": ""
  },
  {
   "property": "C07",
   "status": "proved",
   "theorems": [
    "C07_truncation_keeps_best",
    "C07_truncation_outcome"
   ],
   "note": ""
  },
  {
   "property": "C08",
   "status": "proved",
   "theorems": [
    "C08_best_so_far",
    "C08_selection_elitist",
    "C08_random_methods_lose_best_refuted"
   ],
   "note": ""
  },
  {
   "property": "C09",
   "status": "proved",
   "theorems": [
    "C09_population_size",
    "C09_small_population_untouched",
    "C09_stochastic_universal_equal_refuted",
    "C09_stochastic_universal_one_too_many_refuted",
    "C09_elite_exceeds_refuted",
    "C09_stochastic_universal_at_most_one_extra",
    "C09_stochastic_universal_tiny_spread_refuted",
    "C09_elite_size"
   ],
   "note": "Exact size for nine methods (EliteReserved: max(populationSize, eliteNum)); StochasticUniversal K or K+1 under a spread of 2^-900, refuted on equal or nearly equal fitness."
  },
  {
   "property": "C10",
   "status": "proved",
   "theorems": [
    "C10_no_invention"
   ],
   "note": ""
  },
  {
   "property": "C11",
   "status": "proved",
   "theorems": [
    "C11_best_is_best_survivor"
   ],
   "note": ""
  },
  {
   "property": "C12",
   "status": "proved",
   "theorems": [
    "C12_failTimes_counts_stagnation",
    "C12_failTimes_step"
   ],
   "note": ""
  },
  {
   "property": "C13",
   "status": "proved",
   "theorems": [
    "C13_select_defined",
    "C13_truncation_defined",
    "C13_truncation_dangling_refuted",
    "C13_run_dangling_refuted",
    "C13_elite_outcome",
    "C13_elite_defined",
    "C13_elite_dangling_refuted",
    "C13_run_defined"
   ],
   "note": "Whole runs free of UB and Abort for eight methods (StochasticUniversal as long as its population, which may grow fourfold per round, fits an int); Truncation and EliteReserved characterised exactly; the violation is exhibited in a whole run."
  },
  {
   "property": "C14",
   "status": "proved",
   "theorems": [
    "C14_selection_terminates",
    "C14_roulette_terminates",
    "C14_roulette_equal_hangs_refuted",
    "C14_roulette_overflow_hangs_refuted",
    "C14_elite_equal_hangs_refuted",
    "C14_elite_terminates",
    "C14_truncation_terminates",
    "C14_run_returns",
    "C14_elitist_run_ends",
    "C14_roulette_range_overflow_hangs_refuted",
    "C14_boltzmann_overflow_hangs_refuted"
   ],
   "note": "For every stream, except RouletteWheel/EliteReserved which need streams that keep producing small draws (refuted otherwise); endless selections on overflow proved for every stream."
  },
  {
   "property": "C15",
   "status": "proved",
   "theorems": [
    "C15_tournament",
    "C15_tournament_asserts"
   ],
   "note": ""
  },
  {
   "property": "C16",
   "status": "proved",
   "theorems": [
    "C16_runtime_selects_chosen_method"
   ],
   "note": ""
  },
  {
   "property": "C17",
   "status": "proved",
   "theorems": [
    "C17_dominance_is_pareto",
    "C17_strict_partial_order"
   ],
   "note": ""
  },
  {
   "property": "C18",
   "status": "proved",
   "theorems": [
    "C18_first_layer_is_nondominated",
    "C18_dominated_in_later_layer",
    "C18_dominators_survive",
    "C18_dominators_survive_nsga3"
   ],
   "note": ""
  },
  {
   "property": "C19",
   "status": "proved",
   "theorems": [
    "C19_layers_group_by_dominator_count",
    "C19_layers_are_fronts_refuted"
   ],
   "note": "Refuted as stated (layers are not the classical fronts); the true rule (layer = equal number of dominators, in increasing order) is proved for all populations."
  },
  {
   "property": "C20",
   "status": "proved",
   "theorems": [
    "C20_exactly_populationSize_survive",
    "C20_selection_succeeds",
    "C20_too_few_is_undefined",
    "C20_whole_run",
    "C20_exactly_populationSize_survive_nsga3",
    "C20_too_few_is_undefined_nsga3",
    "C20_whole_run_nsga3",
    "C20_whole_run_from_precision_nsga3"
   ],
   "note": "NSGA-II: exact size, success on tame fitness (finite, |f|<=2^1000), UB with fewer individuals, whole run from initializePop."
  },
  {
   "property": "C21",
   "status": "proved",
   "theorems": [
    "C21_layer_then_crowding"
   ],
   "note": ""
  },
  {
   "property": "C22",
   "status": "proved",
   "theorems": [
    "C22_reported_front",
    "C22_reported_front_nsga3"
   ],
   "note": ""
  },
  {
   "property": "C23",
   "status": "proved",
   "theorems": [
    "C23_crowding_distance",
    "C23_layer_extremes_refuted"
   ],
   "note": "Distances are taken over the whole population; per-layer reading refuted by example."
  },
  {
   "property": "C24",
   "status": "proved",
   "theorems": [
    "C24_best_fitness_is_ideal_point"
   ],
   "note": ""
  },
  {
   "property": "C25",
   "status": "proved",
   "theorems": [
    "C25_simplex_lattice",
    "C25_points_distinct",
    "C25_single_layer",
    "C25_double_layer",
    "C25_precision_setter",
    "C25_coordinates_exact_refuted",
    "C25_unset_precision_is_undefined"
   ],
   "note": "Lattice proved up to 2^-53 per coordinate (2^-52 for the scaled inner layer); correctly rounded coordinates refuted; unset precision is undefined behaviour."
  },
  {
   "property": "C26",
   "status": "proved",
   "theorems": [
    "C26_count",
    "C26_count_of_stored_points",
    "C26_generated",
    "C26_count_overflow_refuted",
    "C26_count_can_be_zero_refuted"
   ],
   "note": "Holds up to M+p-1 = 20; refuted from 21 on (factorial overflow, points silently dropped)."
  },
  {
   "property": "C27",
   "status": "proved",
   "theorems": [
    "C27_niche_preservation",
    "C27_terminates"
   ],
   "note": "Eigen reductions, determinant and inverse are parameters (lin_ops)."
  },
  {
   "property": "C28",
   "status": "proved",
   "theorems": [
    "C28_nearest_of_computed_distances",
    "C28_formula_is_line_distance",
    "C28_normalisation",
    "C28_constant_objective_refuted"
   ],
   "note": "Minimal among the computed distances; the formula is the exact squared line distance over the reals; a constant objective makes everything NaN (refuted)."
  },
  {
   "property": "C29",
   "status": "proved",
   "theorems": [
    "C29_positions_in_box",
    "C29_velocity_in_range",
    "C29_default_initialize",
    "C29_velocity_nan_refuted",
    "C29_nan_velocity_sticks"
   ],
   "note": "Positions proved in the box for every history; velocities in [-velocityMax, velocityMax] for moderate boxes; NaN velocity refuted for huge boxes (overflow), and a NaN velocity then stays."
  },
  {
   "property": "C30",
   "status": "proved",
   "theorems": [
    "C30_pBest",
    "C30_gBest",
    "C30_run_extends_history",
    "C30_gBest_after_initialize_refuted",
    "C30_nan_pBest_sticks",
    "C30_nan_refuted"
   ],
   "note": "Eigen PSO; gBest holds an unevaluated particle until the first round (refuted there); NaN fitness freezes pBest."
  },
  {
   "property": "C31",
   "status": "proved",
   "theorems": [
    "C31_stop_rule_exact",
    "C31_terminates",
    "C31_generation_bound",
    "C31_total",
    "C31_best_and_fails",
    "C31_record",
    "C31_never_stops_at_size_max_refuted",
    "C31_empty_population_refuted"
   ],
   "note": "Exact stop rule, bound, totality, record; refuted at maxGenerations = SIZE_MAX and for an empty population."
  },
  {
   "property": "C32",
   "status": "proved",
   "theorems": [
    "C32_square_accessors",
    "C32_square_posMax_refuted",
    "C32_rectangle_accessors"
   ],
   "note": "Square box: posMax() returns the lower bound (refuted); rectangle box proved on the text of setPVRange, which as written cannot be instantiated (isSizeFixed); rectangles set through references: C83."
  },
  {
   "property": "C33",
   "status": "proved",
   "theorems": [
    "C33_select_best",
    "C33_record_monotone",
    "C33_best_never_worse",
    "C33_best_survives",
    "C33_best_dangles_refuted"
   ],
   "note": "Survival of bestElectron() needs at most electronNum ties or a stable sort; otherwise it is erased and the next round reads it (refuted with an unstable std::sort)."
  },
  {
   "property": "C34",
   "status": "proved",
   "theorems": [
    "C34_layers",
    "C34_overrun_refuted"
   ],
   "note": "The cut positions are those of the documented Gaussian shares; 904238 electrons in 5 layers overrun the layers (refuted)."
  },
  {
   "property": "C35",
   "status": "proved",
   "theorems": [
    "C35_run",
    "C35_generation",
    "C35_reset",
    "C35_early_stop",
    "C35_early_stop_step",
    "C35_second_run"
   ],
   "note": "Holds as stated."
  },
  {
   "property": "C36",
   "status": "proved",
   "theorems": [
    "C36_in_box",
    "C36_nan_refuted"
   ],
   "note": "Box bounds up to 2^800; for DBL_MAX bounds a NaN electron appears (refuted)."
  },
  {
   "property": "C37",
   "status": "proved",
   "theorems": [
    "C37_layer_best",
    "C37_eigen_refuted"
   ],
   "note": "Proved for std containers; for Eigen arrays refuted: addresses are compared."
  },
  {
   "property": "C38",
   "status": "proved",
   "theorems": [
    "C38_applyConstraint",
    "C38_applyConstraint_at",
    "C38_idempotent",
    "C38_inside_unchanged",
    "C38_applyConstraint_int"
   ],
   "note": "Proper boxes (min <= max), doubles and the integer types; NaN stays."
  },
  {
   "property": "C39",
   "status": "proved",
   "theorems": [
    "C39_initialize_continuous",
    "C39_initialize_int",
    "C39_initialize_bool",
    "C39_int_overflow_refuted",
    "C39_wide_range_top_unreachable_refuted",
    "C39_set_range",
    "C39_default_initialiser"
   ],
   "note": "Continuous, integer and boolean boxes; refuted: the int range max-min+1 overflows, and ranges beyond 2^24 leave the top value unreachable."
  },
  {
   "property": "C40",
   "status": "proved",
   "theorems": [
    "C40_applyDelta_continuous",
    "C40_applyDelta_discrete_double",
    "C40_fixed_continuous_ignores_delta_refuted",
    "C40_applyDelta_int",
    "C40_type_limits_refuted",
    "C40_applyDelta_bool"
   ],
   "note": "Also: the fixed continuous box ignores the configured delta, and integer boxes touching the limits of the type wrap (refuted)."
  },
  {
   "property": "C41",
   "status": "proved",
   "theorems": [
    "C41_decode64"
   ],
   "note": "All 2^64 codes; the specification is Flocq b64_of_bits with the NaNs identified."
  },
  {
   "property": "C42",
   "status": "proved",
   "theorems": [
    "C42_decode32"
   ],
   "note": "All 2^32 codes."
  },
  {
   "property": "C43",
   "status": "proved",
   "theorems": [
    "C43_all_doubles",
    "C43_encode64",
    "C43_round_trip",
    "C43_all_ones_refuted",
    "C43_decode_encode_refuted",
    "C43_nan"
   ],
   "note": "Complete case analysis over all codes: exact for every non-NaN number except -0 and the normal numbers with an all-ones mantissa, where the claim is refuted (successor is returned)."
  },
  {
   "property": "C44",
   "status": "proved",
   "theorems": [
    "C44_all_floats",
    "C44_encode32",
    "C44_round_trip",
    "C44_all_ones_refuted",
    "C44_infinity_refuted",
    "C44_nan"
   ],
   "note": "As C43; additionally +infinity is encoded as -infinity (refuted)."
  },
  {
   "property": "C45",
   "status": "proved",
   "theorems": [
    "C45_divcode_bijection",
    "C45_divcode_value",
    "C45_divcode_constants"
   ],
   "note": ""
  },
  {
   "property": "C46",
   "status": "proved",
   "theorems": [
    "C46_powcode_value",
    "C46_accepted",
    "C46_powcode_fields",
    "C46_powcode_roundtrip_iff",
    "C46_zero",
    "C46_powcode_overflow_refuted",
    "C46_doc_example"
   ],
   "note": "Exact: fields of every accepted code, round trip iff the amplified significand is below 2^54, 2^-42 accuracy then; the overflow is refuted by 2 and by the documented example."
  },
  {
   "property": "C47",
   "status": "proved",
   "theorems": [
    "C47_factorial",
    "C47_factorial_exact",
    "C47_NchooseK_exact",
    "C47_NchooseK_refuted"
   ],
   "note": "n! mod 2^64; exact iff n<=20; NchooseK exact for N<=20, K<=N; refuted at N=21; non-terminating for K>N."
  },
  {
   "property": "C48",
   "status": "proved",
   "theorems": [
    "C48_minmax_double",
    "C48_minmax_integer",
    "C48_minmax_constexpr",
    "C48_nan_refuted"
   ],
   "note": ""
  },
  {
   "property": "C49",
   "status": "proved",
   "theorems": [
    "C49_randD_closed",
    "C49_randD_half_open_refuted",
    "C49_randD_overflow_refuted",
    "C49_randD_array",
    "C49_randD_array_range",
    "C49_randD_array_edges"
   ],
   "note": ""
  },
  {
   "property": "C50",
   "status": "proved",
   "theorems": [
    "C50_randIdx",
    "C50_randIdx_range"
   ],
   "note": ""
  },
  {
   "property": "C51",
   "status": "proved",
   "theorems": [
    "C51_chaos_stays_in_unit_interval",
    "C51_bulk_equals_single_steps",
    "C51_fixpoint"
   ],
   "note": ""
  },
  {
   "property": "C52",
   "status": "proved",
   "theorems": [
    "C52_contents",
    "C52_read_after_write",
    "C52_out_of_range",
    "C52_narrow_blocks_refuted"
   ],
   "note": "Refuted for 8- and 16-bit blocks: an element crossing a block boundary is or-ed onto the old bits."
  },
  {
   "property": "C53",
   "status": "proved",
   "theorems": [
    "C53_memory_safe",
    "C53_copy_constructor",
    "C53_copy_overflow_refuted",
    "C53_large_refuted",
    "C53_size_zero_refuted"
   ],
   "note": "Refuted beyond 2^24 bits (block count from a rounded float), for copying a container with spare capacity, and for size 0."
  },
  {
   "property": "C54",
   "status": "proved",
   "theorems": [
    "C54_history_within_capacity",
    "C54_assign_copies",
    "C54_resize_within_capacity",
    "C54_push_back_loses_refuted",
    "C54_resize_loses_refuted",
    "C54_reserve_keeps_prefix",
    "C54_byte_blocks_keep_all"
   ],
   "note": "push_back/resize beyond the capacity lose bits when the block is wider than a byte (refuted)."
  },
  {
   "property": "C55",
   "status": "proved",
   "theorems": [
    "C55_column_major",
    "C55_bijection",
    "C55_write_read",
    "C55_fill",
    "C55_fixed_size"
   ],
   "note": ""
  },
  {
   "property": "C56",
   "status": "proved",
   "theorems": [
    "C56_resize",
    "C56_storage_invariant",
    "C56_assign_from",
    "C56_fixed_size",
    "C56_reserve_refuted"
   ],
   "note": "reserve() never increases the capacity and writes past the array when asked for less (refuted)."
  },
  {
   "property": "C57",
   "status": "proved",
   "theorems": [
    "C57_iteration",
    "C57_fill",
    "C57_overlap_repeats",
    "C57_map_aliases",
    "C57_deep_copy",
    "C57_overlap_refuted"
   ],
   "note": "Overlapping maps refuted."
  },
  {
   "property": "C58",
   "status": "proved",
   "theorems": [
    "C58_arithmetic_crossover",
    "C58_leaves_box_refuted"
   ],
   "note": "Coordinate-wise convex combination up to rounding; leaving the box by rounding is exhibited."
  },
  {
   "property": "C59",
   "status": "proved",
   "theorems": [
    "C59_swap_crossover",
    "C59_uniform_crossover",
    "C59_uniform_loses_alleles_refuted",
    "C59_uniform_dynamic_ignores_probability_refuted"
   ],
   "note": "The uniform crossover loses alleles and the dynamic version ignores its probability (refuted)."
  },
  {
   "property": "C60",
   "status": "proved",
   "theorems": [
    "C60_default_mutation"
   ],
   "note": ""
  },
  {
   "property": "C61",
   "status": "proved",
   "theorems": [
    "C61_documented_minima",
    "C61_mccormick",
    "C61_schaffer4",
    "C61_formulas",
    "C61_two_variables",
    "C61_ackley_formula_refuted",
    "C61_goldstein_refuted",
    "C61_schaffer2_refuted",
    "C61_holder_refuted"
   ],
   "note": ""
  },
  {
   "property": "C62",
   "status": "proved",
   "theorems": [
    "C62_no_early_stop_nsga2",
    "C62_no_early_stop_nsga3"
   ],
   "note": ""
  },
  {
   "property": "C63",
   "status": "proved",
   "theorems": [
    "C63_variable_invariant_soga",
    "C63_variable_invariant_nsga2",
    "C63_variable_invariant_nsga3"
   ],
   "note": "SOGA (all methods) and NSGA-II."
  },
  {
   "property": "C64",
   "status": "proved",
   "theorems": [
    "C64_run_stays_in_box"
   ],
   "note": "SOGA with default operators on a box: arithmetic crossover excluded (see C58)."
  },
  {
   "property": "C65",
   "status": "proved",
   "theorems": [
    "C65_better_gets_no_smaller_weight",
    "C65_elite_better_gets_no_smaller_weight",
    "C65_boltzmann_wrong_direction_refuted",
    "C65_probability_refuted"
   ],
   "note": "Proved for RouletteWheel, LinearRank, ExponentialRank, Boltzmann (with the sign of its strength matching the direction) and EliteReserved; refuted for Boltzmann with the wrong sign (it ignores the direction) and for Probability (the best of three is always eliminated)."
  },
  {
   "property": "C66",
   "status": "proved",
   "theorems": [
    "C66_roulette_draws",
    "C66_rank_draws",
    "C66_boltzmann_draws",
    "C66_elite_draws",
    "C66_probability_draws",
    "C66_draw_in_interval",
    "C66_draw_decides",
    "C66_stochastic_universal_guarantee"
   ],
   "note": "Every weighted method's survivors are the winners of a contest of draws on the documented weights; interval reading in the reals with explicit rounding error; StochasticUniversal keeps everybody whose weight reaches total/populationSize."
  },
  {
   "property": "C67",
   "status": "proved",
   "theorems": [
    "C67_attraction"
   ],
   "note": "Coordinate-wise, factors non-negative, moderate size."
  },
  {
   "property": "C68",
   "status": "proved",
   "theorems": [
    "C68_sign",
    "C68_sign_special"
   ],
   "note": "All finite doubles; NaN counts as 0."
  },
  {
   "property": "C69",
   "status": "proved",
   "theorems": [
    "C69_atom_means",
    "C69_layer_means",
    "C69_std_layer_energy_refuted"
   ],
   "note": "The std version's layer energy is the first electron's energy divided by the number of electrons (refuted)."
  },
  {
   "property": "C70",
   "status": "proved",
   "theorems": [
    "C70_no_failure"
   ],
   "note": "The conditions are those whose violation is refuted in C33, C34 and C36; the default options satisfy them."
  },
  {
   "property": "C71",
   "status": "proved",
   "theorems": [
    "C71_moves"
   ],
   "note": ""
  },
  {
   "property": "C72",
   "status": "proved",
   "theorems": [
    "C72_documented_minima",
    "C72_styblinski_tang",
    "C72_styblinski_tang_eigen_refuted",
    "C72_rosenbrock_formula_refuted",
    "C72_rosenbrock_empty_refuted"
   ],
   "note": ""
  },
  {
   "property": "C73",
   "status": "proved",
   "theorems": [
    "C73_never_negative",
    "C73_rastrigin_never_negative",
    "C73_zero_at_minimum"
   ],
   "note": ""
  },
  {
   "property": "C74",
   "status": "proved",
   "theorems": [
    "C74_schaffer1_front",
    "C74_schaffer2_front_refuted",
    "C74_binh_korn",
    "C74_chankong_haimes",
    "C74_poloni",
    "C74_viennet_refuted",
    "C74_viennet_other_objectives",
    "C74_kursawe_refuted",
    "C74_fitness_not_resized_refuted"
   ],
   "note": ""
  },
  {
   "property": "C75",
   "status": "proved",
   "theorems": [
    "C75_dtlz1",
    "C75_dtlz2",
    "C75_dtlz3",
    "C75_dtlz4",
    "C75_objectives",
    "C75_dtlz56_sphere",
    "C75_dtlz56_nonnegative_refuted",
    "C75_dtlz7",
    "C75_dtlz7_std_refuted"
   ],
   "note": ""
  },
  {
   "property": "C76",
   "status": "proved",
   "theorems": [
    "C76_dtlz8_fixed_safe",
    "C76_dtlz8_two_objectives_refuted",
    "C76_dtlz8_fixed",
    "C76_dtlz8",
    "C76_dtlz8_safe",
    "C76_dtlz9_refuted"
   ],
   "note": ""
  },
  {
   "property": "C77",
   "status": "proved",
   "theorems": [
    "C77_last_value_wins",
    "C77_defaults",
    "C77_rejected_exactly_out_of_range",
    "C77_settings_in_range",
    "C77_reference_unchecked_refuted"
   ],
   "note": ""
  },
  {
   "property": "C78",
   "status": "proved",
   "theorems": [
    "C78_last_function_wins",
    "C78_compile_time_equals_run_time",
    "C78_null_function_undefined",
    "C78_boltzmann_strength_unset_refuted"
   ],
   "note": ""
  },
  {
   "property": "C79",
   "status": "proved",
   "theorems": [
    "C79_lawful_history_defined",
    "C79_lawful_history_returns",
    "C79_after_run",
    "C79_fitness_is_current",
    "C79_query_too_early_refuted",
    "C79_variables_stay_in_region",
    "C79_stale_fitness_refuted"
   ],
   "note": ""
  },
  {
   "property": "C80",
   "status": "proved",
   "theorems": [
    "C80_square_box",
    "C80_rectangle_box",
    "C80_rejected_exactly",
    "C80_references",
    "C80_unset_is_undefined",
    "C80_rectangle_order_unchecked_refuted",
    "C80_delta_size_unchecked_refuted",
    "C80_resize_forgets_refuted",
    "C80_dimensions_overflow_refuted",
    "C80_wide_range_refuted",
    "C80_delta_at_row_column",
    "C80_delta_row_major_refuted"
   ],
   "note": ""
  },
  {
   "property": "C81",
   "status": "proved",
   "theorems": [
    "C81_gaussian_box",
    "C81_coordinate_value",
    "C81_infinite_bounds",
    "C81_unset_is_undefined",
    "C81_accessors",
    "C81_setters_rejected_exactly",
    "C81_reference_unchecked_refuted",
    "C81_setters_only",
    "C81_float_box"
   ],
   "note": ""
  },
  {
   "property": "C82",
   "status": "proved",
   "theorems": [
    "C82_thread_num",
    "C82_rejected_exactly",
    "C82_loop_covers_every_item_once",
    "C82_every_schedule",
    "C82_later_calls_ignored_refuted",
    "C82_few_items_refuted",
    "C82_unknown_hardware_refuted"
   ],
   "note": ""
  },
  {
   "property": "C83",
   "status": "proved",
   "theorems": [
    "C83_last_value_wins",
    "C83_accessors",
    "C83_dimensions",
    "C83_rejected_exactly",
    "C83_default_option",
    "C83_reference_unchecked_refuted"
   ],
   "note": ""
  },
  {
   "property": "C84",
   "status": "proved",
   "theorems": [
    "C84_last_value_wins",
    "C84_compile_time_equals_run_time",
    "C84_too_early_is_undefined",
    "C84_reserved_symbol_refuted"
   ],
   "note": ""
  },
  {
   "property": "C85",
   "status": "proved",
   "theorems": [
    "C85_lawful_history_returns",
    "C85_after_run",
    "C85_population_size",
    "C85_best_of_everything_evaluated",
    "C85_particles_in_current_box",
    "C85_box_read_iff_moves",
    "C85_best_outside_current_box_refuted",
    "C85_stale_best_refuted"
   ],
   "note": ""
  },
  {
   "property": "C86",
   "status": "proved",
   "theorems": [
    "C86_last_value_wins",
    "C86_compile_time_equals_run_time",
    "C86_box_in_use",
    "C86_too_early_is_undefined",
    "C86_energy_before_run_is_undefined",
    "C86_reserved_symbol_refuted",
    "C86_default_option"
   ],
   "note": ""
  },
  {
   "property": "C87",
   "status": "proved",
   "theorems": [
    "C87_lawful_history_returns",
    "C87_region",
    "C87_after_run",
    "C87_energies",
    "C87_best_never_worse",
    "C87_new_positions_in_current_box",
    "C87_box_suffices",
    "C87_best_outside_current_box_refuted",
    "C87_stale_energy_refuted"
   ],
   "note": ""
  },
  {
   "property": "C88",
   "status": "proved",
   "theorems": [
    "C88_last_value_wins",
    "C88_compile_time_equals_run_time",
    "C88_new_solver",
    "C88_too_early_is_undefined",
    "C88_reference_points",
    "C88_reference_count",
    "C88_reference_count_stale_refuted"
   ],
   "note": "Whole object, every history of calls; the refuted theorem records that referencePointCount() and referencePoints() disagree after setting a precision without initializePop()."
  },
  {
   "property": "C89",
   "status": "proved",
   "theorems": [
    "C89_lawful_history_returns",
    "C89_front_always_readable",
    "C89_after_run",
    "C89_best_fitness_is_ideal_point",
    "C89_after_initialise",
    "C89_fitness_is_current",
    "C89_raising_population_undefined",
    "C89_variables_stay_in_region",
    "C89_stale_fitness_refuted"
   ],
   "note": "Lawful calls are spelled out in MOGAObjSpec.v; the refuted theorem records stale fitness values after changing the arguments between runs."
  },
  {
   "property": "C90",
   "status": "proved",
   "theorems": [
    "C90_best_of_each_objective_survives",
    "C90_selection_keeps_ideal_point",
    "C90_ideal_point_never_worsens",
    "C90_small_population_refuted",
    "C90_ties_refuted"
   ],
   "note": ""
  },
  {
   "property": "C91",
   "status": "proved",
   "theorems": [
    "C91_conversions",
    "C91_initialize",
    "C91_applyConstraint",
    "C91_set_range",
    "C91_applyDelta",
    "C91_applyDelta_discrete",
    "C91_discrete_step_lost_refuted",
    "C91_upper_bound_drawn_refuted",
    "C91_gaussian_initialize",
    "C91_gaussian_applyDelta"
   ],
   "note": ""
  },
  {
   "property": "C92",
   "status": "proved",
   "theorems": [
    "C92_soga_stays_inside",
    "C92_soga_defined",
    "C92_soga_returns",
    "C92_soga_after_run",
    "C92_soga_fitness_is_current",
    "C92_nsga_stays_inside",
    "C92_nsga_returns",
    "C92_nsga_after_run"
   ],
   "note": ""
  },
  {
   "property": "C93",
   "status": "proved",
   "theorems": [
    "C93_box_kept_iff_corners",
    "C93_half_keeps_every_box",
    "C93_half_tiny_refuted",
    "C93_default_ratio_keeps",
    "C93_default_ratio_leaves_refuted"
   ],
   "note": ""
  },
  {
   "property": "C94",
   "status": "proved",
   "theorems": [
    "C94_ga_evaluation",
    "C94_aos_evaluation",
    "C94_nsga_dominated_num",
    "C94_pso_evaluation",
    "C94_pso_update_race_refuted",
    "C94_pso_update_races_only_on_generator",
    "C94_pso_update_one_thread",
    "C94_fetched_chunks_are_a_team"
   ],
   "note": ""
  },
  {
   "property": "C95",
   "status": "proved",
   "theorems": [
    "C95_zdt3",
    "C95_kursawe",
    "C95_binh_korn",
    "C95_dtlz7",
    "C95_functions_defined",
    "C95_binh_korn_box_refuted"
   ],
   "note": ""
  },
  {
   "property": "C96",
   "status": "proved",
   "theorems": [
    "C96_stop_reason",
    "C96_runs_to_the_end",
    "C96_tsp_fitness",
    "C96_tsp_default_path",
    "C96_tsp_mutation",
    "C96_tsp_flip_odd",
    "C96_tsp_flip_even_refuted",
    "C96_tsp_one_point_refuted",
    "C96_tsp",
    "C96_tsp_wraps_refuted",
    "C96_ackley",
    "C96_ackley_returns",
    "C96_ackley_bad_choice",
    "C96_functions_defined"
   ],
   "note": ""
  },
  {
   "property": "C97",
   "status": "proved",
   "theorems": [
    "C97_only_inside",
    "C97_only_in_box",
    "C97_stop_reason",
    "C97_runs_to_the_end"
   ],
   "note": ""
  },
  {
   "property": "C98",
   "status": "proved",
   "theorems": [
    "C98_rastrigin",
    "C98_tsp",
    "C98_tsp_other_sizes",
    "C98_order_of_keys_refuted"
   ],
   "note": ""
  },
  {
   "property": "C99",
   "status": "proved",
   "theorems": [
    "C99_best_of_all_tried",
    "C99_default_layers_fit",
    "C99_rastrigin"
   ],
   "note": ""
  },
  {
   "property": "C100",
   "status": "proved",
   "theorems": [
    "C100_forward",
    "C100_backward",
    "C100_update",
    "C100_reference",
    "C100_assign_reference",
    "C100_stable",
    "C100_arithmetic",
    "C100_from_end",
    "C100_null_read_refuted",
    "C100_program"
   ],
   "note": ""
  },
  {
   "property": "C101",
   "status": "proved",
   "theorems": [
    "C101_int_square",
    "C101_int_fixed_range",
    "C101_int_rectangle",
    "C101_float_square",
    "C101_float_fixed_range",
    "C101_float_rectangle",
    "C101_bool",
    "C101_rejected_exactly",
    "C101_unset_is_undefined",
    "C101_references",
    "C101_rectangle_order_refuted"
   ],
   "note": ""
  },
  {
   "property": "C102",
   "status": "proved",
   "theorems": [
    "C102_boxes_program"
   ],
   "note": ""
  },
  {
   "property": "C103",
   "status": "proved",
   "theorems": [
    "C103_within_capacity",
    "C103_lifetime",
    "C103_move",
    "C103_growth_refuted",
    "C103_resize_exactly",
    "C103_default_constructed_refuted",
    "C103_reserve_refuted",
    "C103_fixed_from_dynamic",
    "C103_program"
   ],
   "note": ""
  },
  {
   "property": "C104",
   "status": "proved",
   "theorems": [
    "C104_printBin",
    "C104_compare",
    "C104_decimal",
    "C104_encoder_program",
    "C104_minmax_program",
    "C104_egg_program"
   ],
   "note": ""
  },
  {
   "property": "C105",
   "status": "proved",
   "theorems": [
    "C105_copy",
    "C105_assign",
    "C105_own_best_is_independent",
    "C105_own_best_as_alone",
    "C105_init_and_run_own",
    "C105_copy_shares_best_refuted",
    "C105_copy_outlives_source_refuted",
    "C105_copy_follows_source_refuted"
   ],
   "note": ""
  },
  {
   "property": "C106",
   "status": "proved",
   "theorems": [
    "C106_copy",
    "C106_assign",
    "C106_own_front_is_independent",
    "C106_init_and_run_own",
    "C106_run_ignores_old_front",
    "C106_copy_shares_front_refuted",
    "C106_copy_outlives_source_refuted",
    "C106_copy_follows_source_refuted"
   ],
   "note": ""
  },
  {
   "property": "C107",
   "status": "proved",
   "theorems": [
    "C107_copy",
    "C107_assign",
    "C107_move",
    "C107_move_assign",
    "C107_swap",
    "C107_own_is_independent",
    "C107_own_runs_alone",
    "C107_init_and_run_own",
    "C107_init_ignores_old_pointers",
    "C107_live_copy_runs_on",
    "C107_copy_shares_best_refuted",
    "C107_copy_outlives_source_refuted",
    "C107_copy_before_run_refuted",
    "C107_move_copy_back_refuted"
   ],
   "note": ""
  },
  {
   "property": "C108",
   "status": "proved",
   "theorems": [
    "C108_copy",
    "C108_assign",
    "C108_swap",
    "C108_independent",
    "C108_runs_alone",
    "C108_copy_goes_on_like_the_original",
    "C108_own_life",
    "C108_nothing_else_is_undefined"
   ],
   "note": ""
  },
  {
   "property": "C109",
   "status": "proved",
   "theorems": [
    "C109_names_distinct",
    "C109_printed_as_written",
    "C109_described",
    "C109_menu",
    "C109_other_values_undefined",
    "C109_unknown_method_refuted",
    "C109_typed_number"
   ],
   "note": ""
  },
  {
   "property": "C110",
   "status": "proved",
   "theorems": [
    "C110_layers_partition",
    "C110_layer_best",
    "C110_empty_layer_aborts"
   ],
   "note": ""
  }
 ]
}