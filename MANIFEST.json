{
 "claims": [
  {
   "property": "C01",
   "status": "proved",
   "theorems": [
    "C01_comparators_meaning",
    "C01_strict_weak_order",
    "C01_sort_precondition"
   ],
   "note": ""
  },
  {
   "property": "C02",
   "status": "proved",
   "theorems": [
    "C02_pareto_dominance_exact",
    "C02_dominance_strict_partial_order"
   ],
   "note": ""
  },
  {
   "property": "C03",
   "status": "proved",
   "theorems": [
    "C03_fnds_exact",
    "C03_fronts_unique",
    "C03_fnds_rejects"
   ],
   "note": ""
  },
  {
   "property": "C04",
   "status": "proved",
   "theorems": [
    "C04_nd2d_exact",
    "C04_nd2d_rejects"
   ],
   "note": ""
  },
  {
   "property": "C05",
   "status": "proved",
   "theorems": [
    "C05_select_best_N",
    "C05_kept_not_dominated_by_discarded"
   ],
   "note": ""
  },
  {
   "property": "C06",
   "status": "proved",
   "theorems": [
    "C06_sort_population_mo"
   ],
   "note": ""
  },
  {
   "property": "C07",
   "status": "proved",
   "theorems": [
    "C07_crowding_distance",
    "C07_crowding_extremes_infinite",
    "C07_crowding_degenerate_refuted"
   ],
   "note": "Extremes-infinite part holds for fronts without constant or non-finite objectives; the degenerate case is refuted (NaN)."
  },
  {
   "property": "C08",
   "status": "proved",
   "theorems": [
    "C08_ideal",
    "C08_nadir",
    "C08_nadir_single_point_refuted"
   ],
   "note": "nadir on a single point throws, recorded as a refutation."
  },
  {
   "property": "C09",
   "status": "proved",
   "theorems": [
    "C09_grid_weights",
    "C09_sampled_weights",
    "C09_weights_rejected",
    "C09_grid_canonical_first_refuted"
   ],
   "note": "Grid part assumes binomial_coefficient is correctly rounded; canonical-first is refuted for the grid method."
  },
  {
   "property": "C10",
   "status": "proved",
   "theorems": [
    "C10_weighted_monotone",
    "C10_weighted_not_nan",
    "C10_tchebycheff_max",
    "C10_zero_at_reference",
    "C10_tchebycheff_zero_only_at_reference_refuted",
    "C10_decompose_shape_and_errors"
   ],
   "note": "'zero only at the reference' is refuted in floating point."
  },
  {
   "property": "C11",
   "status": "proved",
   "theorems": [
    "C11_constraint_counts",
    "C11_feasibility",
    "C11_zero_norm_refuted",
    "C11_set_c_tol"
   ],
   "note": "Includes problem::set_c_tol. With infinite tolerances a NaN violation counts as violated (recorded as refutation)."
  },
  {
   "property": "C12",
   "status": "proved",
   "theorems": [
    "C12_compare_fc",
    "C12_compare_fc_violations",
    "C12_compare_fc_rejects"
   ],
   "note": ""
  },
  {
   "property": "C13",
   "status": "partial",
   "theorems": [
    "C13_strict_partial_order",
    "C13_strict_weak_order",
    "C13_strict_weak_order_refuted",
    "C13_irreflexive_refuted"
   ],
   "note": "The desired property is REFUTED; what is proved is the conditional version. Strict weak order needs the two violation measures to agree on infeasible vectors; refuted in general and irreflexivity refuted for huge violations."
  },
  {
   "property": "C14",
   "status": "proved",
   "theorems": [
    "C14_sort_population_con",
    "C14_feasible_first",
    "C14_sort_rejects",
    "C14_sort_defined_refuted"
   ],
   "note": "Proved when the comparator is a strict weak order on the input; otherwise std::sort is undefined (refuted)."
  },
  {
   "property": "C15",
   "status": "proved",
   "theorems": [
    "C15_stored",
    "C15_effect",
    "C15_success"
   ],
   "note": ""
  },
  {
   "property": "C16",
   "status": "proved",
   "theorems": [
    "C16_champion_unconstrained",
    "C16_champion_constrained"
   ],
   "note": ""
  },
  {
   "property": "C17",
   "status": "proved",
   "theorems": [
    "C17_rejected",
    "C17_counter",
    "C17_no_evaluation_refuted"
   ],
   "note": ""
  },
  {
   "property": "C18",
   "status": "proved",
   "theorems": [
    "C18_best_idx",
    "C18_worst_idx",
    "C18_constrained",
    "C18_rejects",
    "C18_best_with_nan_refuted",
    "C18_worst_with_nan_refuted"
   ],
   "note": ""
  },
  {
   "property": "C19",
   "status": "proved",
   "theorems": [
    "C19_constructors"
   ],
   "note": ""
  },
  {
   "property": "C20",
   "status": "proved",
   "theorems": [
    "C20_constructor"
   ],
   "note": ""
  },
  {
   "property": "C21",
   "status": "proved",
   "theorems": [
    "C21_fitness",
    "C21_counter_all_schedules"
   ],
   "note": ""
  },
  {
   "property": "C22",
   "status": "proved",
   "theorems": [
    "C22_parallel_is_sequential",
    "C22_parallel_failure",
    "C22_parallel_possible",
    "C22_unsafe_problem_rejected"
   ],
   "note": ""
  },
  {
   "property": "C23",
   "status": "proved",
   "theorems": [
    "C23_bfe_checks",
    "C23_batch_fitness_checks",
    "C23_failed_batch_not_counted_refuted"
   ],
   "note": "'only successful batches are counted' refuted for problem::batch_fitness."
  },
  {
   "property": "C24",
   "status": "proved",
   "theorems": [
    "C24_gradient_check_exact",
    "C24_hessian_check_exact",
    "C24_dense_patterns",
    "C24_problem_patterns",
    "C24_gradient_call",
    "C24_hessians_call"
   ],
   "note": ""
  },
  {
   "property": "C25",
   "status": "partial",
   "theorems": [
    "C25_dense_hessian_size",
    "C25_overflow_guard_refuted"
   ],
   "note": "The desired property is REFUTED above 2^32; the size is right exactly up to there. The size is right exactly for nx <= 2^32; the overflow guard is refuted."
  },
  {
   "property": "C26",
   "status": "proved",
   "theorems": [
    "C26_constructor",
    "C26_evaluation",
    "C26_outer_problem",
    "C26_nan_rejected",
    "C26_batch",
    "C26_box",
    "C26_zero_translation",
    "C26_box_rounding_refuted"
   ],
   "note": ""
  },
  {
   "property": "C27",
   "status": "proved",
   "theorems": [
    "C27_constructor",
    "C27_size",
    "C27_feasible",
    "C27_infeasible",
    "C27_kuri_range",
    "C27_kuri_antitone",
    "C27_weighted_ge",
    "C27_batch",
    "C27_ignore_o_batch_refuted",
    "C27_ignore_o_zero_refuted"
   ],
   "note": ""
  },
  {
   "property": "C28",
   "status": "proved",
   "theorems": [
    "C28_constructor",
    "C28_positive_weights_refuted",
    "C28_running_ideal",
    "C28_next_call",
    "C28_fixed_reference"
   ],
   "note": ""
  },
  {
   "property": "C29",
   "status": "proved",
   "theorems": [
    "C29_stick",
    "C29_stick_identity",
    "C29_random"
   ],
   "note": ""
  },
  {
   "property": "C30",
   "status": "proved",
   "theorems": [
    "C30_reflection_terminates",
    "C30_reflection_result",
    "C30_reflection_identity",
    "C30_termination_refuted"
   ],
   "note": "In-box result for every terminating run; termination proved on a dyadic grid where the loop is exact; termination in general is refuted (both lb=ub and lb<ub)."
  },
  {
   "property": "C31",
   "status": "proved",
   "theorems": [
    "C31_random_decision_vector",
    "C31_batch"
   ],
   "note": "Random engine abstracted by a contract (results lie in the requested range); stream_contract shows it is satisfiable."
  },
  {
   "property": "C32",
   "status": "proved",
   "theorems": [
    "C32_knn",
    "C32_knn_rejects"
   ],
   "note": ""
  },
  {
   "property": "C33",
   "status": "proved",
   "theorems": [
    "C33_sample_from_simplex",
    "C33_sample_from_simplex_rejects",
    "C33_nan_rejected_refuted"
   ],
   "note": "NaN rejection refuted."
  },
  {
   "property": "C34",
   "status": "proved",
   "theorems": [
    "C34_van_der_corput_sequence",
    "C34_digit_expansion_exists",
    "C34_range_and_no_repetition",
    "C34_equidistributed",
    "C34_halton_sequence",
    "C34_rejects"
   ],
   "note": ""
  },
  {
   "property": "C35",
   "status": "proved",
   "theorems": [
    "C35_prime_table",
    "C35_prime_monotone",
    "C35_prime_edges"
   ],
   "note": ""
  },
  {
   "property": "C36",
   "status": "proved",
   "theorems": [
    "C36_sbx_rejects",
    "C36_sbx_accepts",
    "C36_sbx_box",
    "C36_sbx_box_or_nan",
    "C36_sbx_huge_bounds_refuted",
    "C36_sbx_never",
    "C36_mutation_rejects",
    "C36_mutation_box",
    "C36_mutation_box_or_nan",
    "C36_mutation_never",
    "C36_mutation_keeps"
   ],
   "note": ""
  },
  {
   "property": "C37",
   "status": "proved",
   "theorems": [
    "C37_tournament",
    "C37_tie"
   ],
   "note": ""
  },
  {
   "property": "C38",
   "status": "proved",
   "theorems": [
    "C38_gradient_layout",
    "C38_gradient_h_layout",
    "C38_gradient_outcome",
    "C38_gradient_exact",
    "C38_gradient_h_exact",
    "C38_sparsity",
    "C38_sparsity_outcome",
    "C38_sparsity_complete_refuted"
   ],
   "note": "Layout, outcome and sparsity hold for any arithmetic (doubles included); exactness (degree 2 and 6) is over the rationals. That the estimated pattern misses no dependency is refuted."
  },
  {
   "property": "C39",
   "status": "proved",
   "theorems": [
    "C39_hv2d"
   ],
   "note": "Exact (integer) arithmetic; rounding of doubles is outside this theorem."
  },
  {
   "property": "C40",
   "status": "proved",
   "theorems": [
    "C40_wfg"
   ],
   "note": ""
  },
  {
   "property": "C41",
   "status": "proved",
   "theorems": [
    "C41_hv3d",
    "C41_default_algorithm"
   ],
   "note": ""
  },
  {
   "property": "C42",
   "status": "partial",
   "theorems": [
    "C42_exclusive",
    "C42_wfg_contributions",
    "C42_inherited_contributions",
    "C42_contributions_nonnegative",
    "C42_extreme_contributors",
    "C42_hv3d_contributions_refuted",
    "C42_hv2d_contributions_refuted"
   ],
   "note": "The desired property is REFUTED for contributions() of hv2d and hv3d; the rest is proved. exclusive() proved for all three algorithms, contributions() for WFG and for the inherited generic method, extreme contributors for WFG; the contributions() of hv3d and hv2d are refuted by a counterexample with tied first coordinates."
  },
  {
   "property": "C43",
   "status": "proved",
   "theorems": [
    "C43_monotone",
    "C43_same_set",
    "C43_dominated_point"
   ],
   "note": ""
  },
  {
   "property": "C44",
   "status": "proved",
   "theorems": [
    "C44_construct",
    "C44_construct_from_population",
    "C44_reference_point",
    "C44_refpoint",
    "C44_refpoint_accepted",
    "C44_refpoint_doubles_refuted",
    "C44_nan_reference_refuted"
   ],
   "note": "Construction and reference point validation proved on doubles; refpoint acceptance proved in exact arithmetic and refuted on doubles (absorbed offset); NaN reference points are accepted (refuted)."
  },
  {
   "property": "C45",
   "status": "proved",
   "theorems": [
    "C45_single_objective",
    "C45_best_not_lost",
    "C45_constrained",
    "C45_constrained_defined_refuted",
    "C45_multi_objective",
    "C45_rejects"
   ],
   "note": "All three problem kinds. Kept individuals are complete (ID, x, f) triples of population or used migrants (multiset inclusion), size preserved, no discarded one beats a kept one; used migrants are the best of the migrants. Constrained case needs the comparison to be a strict weak order on the fitnesses involved; without that the call is UB (refuted theorem)."
  },
  {
   "property": "C46",
   "status": "proved",
   "theorems": [
    "C46_single_objective",
    "C46_constrained",
    "C46_multi_objective",
    "C46_rejects",
    "C46_rates"
   ],
   "note": "All three problem kinds, best-first order for single-objective problems; rate construction checks; rejections."
  },
  {
   "property": "C47",
   "status": "proved",
   "theorems": [
    "C47_r_policy",
    "C47_s_policy"
   ],
   "note": "Complete characterisation of both wrappers for an arbitrary user policy."
  },
  {
   "property": "C48",
   "status": "proved",
   "theorems": [
    "C48_ring",
    "C48_neighbours",
    "C48_push_back",
    "C48_weight"
   ],
   "note": ""
  },
  {
   "property": "C49",
   "status": "proved",
   "theorems": [
    "C49_fully_connected",
    "C49_push_back",
    "C49_weight",
    "C49_to_bgl",
    "C49_unconnected"
   ],
   "note": ""
  },
  {
   "property": "C50",
   "status": "partial",
   "theorems": [
    "C50_history",
    "C50_history_from_graph",
    "C50_weights_checked",
    "C50_parallel_edges_refuted",
    "C50_wrapper"
   ],
   "note": "'No parallel edges' is REFUTED; the rest is proved."
  },
  {
   "property": "C51",
   "status": "proved",
   "theorems": [
    "C51_one_at_a_time",
    "C51_at_most_once",
    "C51_order",
    "C51_all_run",
    "C51_terminates",
    "C51_task_may_never_run_refuted"
   ],
   "note": "Safety for every schedule; every accepted task runs when there is one client thread or nobody calls wait_all; refuted for a concurrent wait_all (it can swallow the notification)."
  },
  {
   "property": "C52",
   "status": "proved",
   "theorems": [
    "C52_wait_all",
    "C52_destructor",
    "C52_after_destructor"
   ],
   "note": ""
  },
  {
   "property": "C53",
   "status": "partial",
   "theorems": [
    "C53_wait_all_returns_refuted",
    "C53_repaired_variant"
   ],
   "note": "The desired property is REFUTED for the code. Refuted for the code by a schedule with a single client thread; proved for the variant that clears the flag under the mutex and notifies all."
  },
  {
   "property": "C54",
   "status": "proved",
   "theorems": [
    "C54_status",
    "C54_wait",
    "C54_wait_check",
    "C54_defined",
    "C54_returns"
   ],
   "note": ""
  },
  {
   "property": "C55",
   "status": "proved",
   "theorems": [
    "C55_status",
    "C55_status_quiet",
    "C55_status_snapshot_refuted",
    "C55_wait",
    "C55_wait_check",
    "C55_returns"
   ],
   "note": ""
  },
  {
   "property": "C56",
   "status": "proved",
   "theorems": [
    "C56_lookup",
    "C56_owner",
    "C56_destructor_asserts",
    "C56_db_size",
    "C56_push_back",
    "C56_copy",
    "C56_copy_assign",
    "C56_move"
   ],
   "note": ""
  },
  {
   "property": "C57",
   "status": "proved",
   "theorems": [
    "C57_get",
    "C57_extract",
    "C57_set",
    "C57_last_set",
    "C57_extract_once",
    "C57_conservation"
   ],
   "note": ""
  },
  {
   "property": "C58",
   "status": "proved",
   "theorems": [
    "C58_log",
    "C58_sources",
    "C58_zero_weights",
    "C58_atomic",
    "C58_population_valid",
    "C58_defined",
    "C58_fair",
    "C58_best_kept",
    "C58_only_new_refuted",
    "C58_distinct_ids_refuted",
    "C58_evicted_kept_refuted"
   ],
   "note": ""
  },
  {
   "property": "C59",
   "status": "partial",
   "theorems": [
    "C59_champion_kept",
    "C59_champion_best_refuted"
   ],
   "note": "The desired property is REFUTED: migration leaves the champion alone, so it may be worse than an individual."
  },
  {
   "property": "C60",
   "status": "proved",
   "theorems": [
    "C60_problem",
    "C60_algorithm",
    "C60_named",
    "C60_bfe",
    "C60_population",
    "C60_island",
    "C60_archipelago",
    "C60_failure_resets",
    "C60_corruption_noticed_refuted",
    "C60_loaded_consistent_refuted",
    "C60_island_stays_refuted"
   ],
   "note": ""
  },
  {
   "property": "C61",
   "status": "proved",
   "theorems": [
    "C61_constructor",
    "C61_rejects",
    "C61_no_generations",
    "C61_evolve",
    "C61_evolve_in_box",
    "C61_all_generations",
    "C61_five_distinct",
    "C61_trial"
   ],
   "note": ""
  },
  {
   "property": "C62",
   "status": "proved",
   "theorems": [
    "C62_rejects",
    "C62_evolve",
    "C62_generation",
    "C62_mutation_ends",
    "C62_mutation",
    "C62_stochastic"
   ],
   "note": ""
  },
  {
   "property": "C63",
   "status": "proved",
   "theorems": [
    "C63_constructor",
    "C63_rejects",
    "C63_selection",
    "C63_tournament_nan_refuted",
    "C63_crossover",
    "C63_sbx",
    "C63_evolve",
    "C63_evolve_in_box",
    "C63_never_worsens",
    "C63_stochastic",
    "C63_int_bounds_refuted",
    "C63_nan_probability_refuted"
   ],
   "note": "The constructor, the exceptions, tournament and truncated selection, the four crossovers, the three mutations, elitist reinsertion and the stochastic case are proved, for every generator, shuffle, binomial draw and sort that keep their contracts. Refuted: a parent with fitness NaN wins tournaments; bounds of integer variables that an int cannot hold and a NaN mutation probability (which the constructor accepts) are undefined behaviour. Batch evaluation (set_bfe) is not modelled."
  },
  {
   "property": "C64",
   "status": "proved",
   "theorems": [
    "C64_constructor",
    "C64_rejects",
    "C64_ranking",
    "C64_evolve",
    "C64_evolve_in_box",
    "C64_keeps_nondominated",
    "C64_batch"
   ],
   "note": "Full claim proved for the sequential and the batch variant. Conclusions on the box: newborn coordinates are in the bounds or NaN (C64_evolve), and in the bounds for bounds up to 2^1022 and a std::pow with the stated contract (C64_evolve_in_box). Bounds are assumed to be doubles (is_double). The log and the thread-safety of the batch evaluator are not modelled."
  },
  {
   "property": "C65",
   "status": "proved",
   "theorems": [
    "C65_constructor",
    "C65_rejects",
    "C65_no_evaluations",
    "C65_evolve",
    "C65_evolve_in_box",
    "C65_descent",
    "C65_hard_limit_refuted",
    "C65_negative_stop_refuted",
    "C65_policies"
   ],
   "note": ""
  },
  {
   "property": "C66",
   "status": "proved",
   "theorems": [
    "C66_constructor",
    "C66_rejects",
    "C66_evolve",
    "C66_mixed_policies_refuted"
   ],
   "note": "std::exp and std::pow are arbitrary functions with exp(NaN)=NaN; bin_size*nx < 2^31 excludes overflow of the int counter of accepted moves; logging not modelled"
  },
  {
   "property": "C67",
   "status": "proved",
   "theorems": [
    "C67_constructor",
    "C67_rejects",
    "C67_stop_zero",
    "C67_evolve",
    "C67_improvement"
   ],
   "note": "the inner algorithm is any computation that keeps the problem, the number of individuals, the box and rankability; logging not modelled"
  },
  {
   "property": "C68",
   "status": "partial",
   "theorems": [
    "C68_constructor",
    "C68_rejects",
    "C68_no_generations",
    "C68_evolve",
    "C68_evolve_in_box",
    "C68_scout",
    "C68_nan_never_returns",
    "C68_best_kept_refuted",
    "C68_fitness_tracked_refuted"
   ],
   "note": "Tracking of the fitness is REFUTED. Statement split: in-box, evaluation count (2 NP per generation) and strict improvement before any scout are proved; tracking the fitness after a scout and keeping the best individual are refuted; a NaN fitness makes evolve loop forever (proved)."
  },
  {
   "property": "C69",
   "status": "partial",
   "theorems": [
    "C69_constructor",
    "C69_rejects",
    "C69_no_generations",
    "C69_single_objective",
    "C69_multi_objective",
    "C69_selection_kept_refuted",
    "C69_nan_first_blocks",
    "C69_pitch_refuted"
   ],
   "note": "The multi-objective property is REFUTED. Single-objective replacement proved; the multi-objective in-place overwrite and the integer pitch are refuted; a NaN in the first position blocks the algorithm."
  },
  {
   "property": "C70",
   "status": "partial",
   "theorems": [
    "C70_rejects",
    "C70_no_generations",
    "C70_evolve",
    "C70_evolve_in_box",
    "C70_initial_leaders_worst",
    "C70_best_kept_refuted"
   ],
   "note": "That the initial leaders are the best is REFUTED. Model: the whole of evolve with the log of verbosity 1. The property 'leaders are the best, the best is not lost' is refuted (C70_initial_leaders_worst, C70_best_kept_refuted holds for every random engine and sort)."
  },
  {
   "property": "C71",
   "status": "proved",
   "theorems": [
    "C71_rejects",
    "C71_evolve",
    "C71_never_worse",
    "C71_unevaluated_refuted"
   ],
   "note": "Proved for every inner algorithm that returns as many points as it got, each given to it or evaluated by it, on rankable fitness vectors (C13). evolve requires 4 individuals where its documentation says 3. Refuted for an inner algorithm that evaluates with copies of the problem. Not modelled: the log, IDs and champion of the inner population, an inner algorithm that returns a population with another problem object."
  },
  {
   "property": "C72",
   "status": "partial",
   "theorems": [
    "C72_constructor",
    "C72_rejects",
    "C72_step",
    "C72_evolve",
    "C72_evolve_in_box",
    "C72_ring",
    "C72_lattice",
    "C72_random_topology",
    "C72_best_neighbour",
    "C72_nan_keeps_memory_refuted",
    "C72_small_population_refuted",
    "C72_other_dimension_refuted",
    "C72_fully_informed_nan_refuted",
    "C72_memory_serialized_refuted",
    "C72_parameters_serialized"
   ],
   "note": "The property is REFUTED in the cases listed; proved otherwise. Remembered points are evaluated points, in the bounds (or NaN in general), never worse unless NaN occurs; neighbourhood structures characterised; refuted: NaN overwrites the memory, ring radius 0 or above the population size is undefined behaviour, velocities kept from a problem of another dimension are read out of range, fully informed variant with empty neighbourhood yields NaN, memory flag not serialized."
  },
  {
   "property": "C73",
   "status": "proved",
   "theorems": [
    "C73_constructor",
    "C73_rejects",
    "C73_no_generations",
    "C73_evolve",
    "C73_evolve_in_box",
    "C73_weighted_no_worse",
    "C73_limit_refuted"
   ],
   "note": "The loop that draws two distinct parents is bounded by fuel: the theorems say what holds when it finishes; the example uses a generator for which it does. binomial_coefficient is assumed exact, Halton points in [0,1] (C34). Logs are not modelled."
  },
  {
   "property": "C74",
   "status": "proved",
   "theorems": [
    "C74_constructor",
    "C74_problem",
    "C74_defined",
    "C74_count",
    "C74_golomb"
   ],
   "note": "the exact counts need fewer than 2^26 gaps; non-integral gaps are only shown to be defined"
  },
  {
   "property": "C75",
   "status": "proved",
   "theorems": [
    "C75_vector_short",
    "C75_vector_long",
    "C75_map_short",
    "C75_map_long",
    "C75_rows",
    "C75_table",
    "C75_aligned"
   ],
   "note": "stream_range, pairs, maps, bools and table printing; streaming of doubles themselves is a parameter"
  },
  {
   "property": "C76",
   "status": "partial",
   "theorems": [
    "C76_feasible",
    "C76_all_feasible",
    "C76_never_better",
    "C76_negative_refuted",
    "C76_order_refuted",
    "C76_nan_refuted"
   ],
   "note": "Proved: feasible points get their objective; nobody is penalized when all individuals are feasible; with positive objectives and a feasible individual no point gets better than its objective. REFUTED: negative objectives, order when no individual is feasible, NaN. std::exp is an arbitrary function with the stated values."
  },
  {
   "property": "C77",
   "status": "proved",
   "theorems": [
    "C77_rosenbrock",
    "C77_rastrigin",
    "C77_rastrigin_hessians",
    "C77_hock_schittkowski_71",
    "C77_hock_schittkowski_71_hessians",
    "C77_luksan_vlcek1"
   ],
   "note": "TestProblems.v is written over an abstract arithmetic; the theorems take the real numbers of the standard library (TestArith.Rar). Rounding is not covered: a double gradient is close to, not equal to, the derivative."
  },
  {
   "property": "C78",
   "status": "proved",
   "theorems": [
    "C78_rosenbrock",
    "C78_rastrigin",
    "C78_griewank",
    "C78_ackley"
   ],
   "note": "Exact arithmetic as in C77: in doubles the fitness at best_known can differ from zero by rounding."
  },
  {
   "property": "C79",
   "status": "proved",
   "theorems": [
    "C79_constructor",
    "C79_dimension",
    "C79_defined",
    "C79_potential",
    "C79_low",
    "C79_coinciding"
   ],
   "note": "Exact arithmetic (real numbers) for the potential; C79_defined holds for any arithmetic."
  },
  {
   "property": "C80",
   "status": "partial",
   "theorems": [
    "C80_constructor",
    "C80_defined",
    "C80_defined_refuted",
    "C80_distance",
    "C80_front",
    "C80_zdt3_refuted",
    "C80_population",
    "C80_rounding_refuted"
   ],
   "note": "Exact arithmetic. The property as stated is refuted in part (C80_defined_refuted, C80_zdt3_refuted, C80_rounding_refuted); the rest is proved for all problems, parameters and decision vectors."
  },
  {
   "property": "C81",
   "status": "partial",
   "theorems": [
    "C81_constructor",
    "C81_defined",
    "C81_distance",
    "C81_front",
    "C81_population",
    "C81_dtlz7_refuted",
    "C81_dtlz5_refuted"
   ],
   "note": "Exact arithmetic. The property as stated is refuted in part: DTLZ7 (zero distance does not imply optimality), DTLZ5 and DTLZ6 with four objectives (optimality does not imply zero distance). Everything else is proved."
  },
  {
   "property": "C82",
   "status": "partial",
   "theorems": [
    "C82_result",
    "C82_observed",
    "C82_child_error",
    "C82_faultless",
    "C82_bounded",
    "C82_no_deadlock",
    "C82_inherited",
    "C82_hang_refuted"
   ],
   "note": "Proved for all schedules and crash points, relative to the archive contract (what is saved can be loaded again and uses all bytes). The liveness part is refuted when another thread uses the island at the moment of fork()."
  },
  {
   "property": "C83",
   "status": "proved",
   "theorems": [
    "C83_constructor",
    "C83_rejects",
    "C83_no_generations",
    "C83_evolve",
    "C83_evolve_in_box",
    "C83_ranges",
    "C83_forgets",
    "C83_seven_distinct",
    "C83_trial",
    "C83_adaptation",
    "C83_step"
   ],
   "note": "sade; the model of the two algorithms is one (AlgSade), rejects/forgets/trial theorems hold for both"
  },
  {
   "property": "C84",
   "status": "partial",
   "theorems": [
    "C84_constructor",
    "C84_evolve",
    "C84_empty_refuted",
    "C84_evolve_in_box",
    "C84_ranges",
    "C84_step"
   ],
   "note": "de1220; C84_empty_refuted: an empty list of allowed variants is accepted and evolve is then undefined behaviour"
  },
  {
   "property": "C85",
   "status": "partial",
   "theorems": [
    "C85_constructor",
    "C85_declines",
    "C85_evolve",
    "C85_ready",
    "C85_evolve_in_box",
    "C85_stopped",
    "C85_memory_refuted",
    "C85_one_generation",
    "C85_penalty",
    "C85_kernel"
   ],
   "note": "Constructor, refused calls, evolve with and without memory and with a batch evaluator, the box, stopping; C85_memory_refuted: a refused first call makes the next one undefined behaviour; one generation with ker = NP only permutes. std::exp is a parameter; the log is not modelled."
  },
  {
   "property": "C86",
   "status": "proved",
   "theorems": [
    "C86_linearizable",
    "C86_each_once",
    "C86_seeded",
    "C86_no_deadlock",
    "C86_ends"
   ],
   "note": "All five theorems hold for every engine and schedule; mutual exclusion by std::mutex is part of the model (a thread at the lock is blocked while another has it)."
  },
  {
   "property": "C87",
   "status": "partial",
   "theorems": [
    "C87_history",
    "C87_nonneg",
    "C87_no_samples_refuted"
   ],
   "note": "A sample size of zero gives NaN (refuted part); the rest is proved."
  },
  {
   "property": "C88",
   "status": "partial",
   "theorems": [
    "C88_constructor",
    "C88_ready",
    "C88_rejects",
    "C88_no_generations",
    "C88_evolve",
    "C88_all_generations",
    "C88_generation",
    "C88_forgets",
    "C88_bounds_refuted",
    "C88_integers_refuted"
   ],
   "note": "Partial because two of its clauses are false of the code (C88_bounds_refuted: NaN sigma0; C88_integers_refuted); everything else in the statement is proved for all inputs."
  },
  {
   "property": "C89",
   "status": "partial",
   "theorems": [
    "C89_constructor",
    "C89_ready",
    "C89_rejects",
    "C89_no_generations",
    "C89_evolve",
    "C89_all_generations",
    "C89_generation",
    "C89_forgets",
    "C89_nan_refuted",
    "C89_memory_refuted",
    "C89_bounds_refuted"
   ],
   "note": "The run-time, population, bounds, mean update and history clauses are proved; that any fitness function is supported, that the first call does not depend on memory and that bounds hold for every accepted sigma0 are refuted. The numbers computed by Eigen are a parameter."
  },
  {
   "property": "C90",
   "status": "proved",
   "theorems": [
    "C90_rejects",
    "C90_no_generations",
    "C90_evolve",
    "C90_evolve_in_box",
    "C90_batch",
    "C90_one_batch"
   ],
   "note": ""
  },
  {
   "property": "C91",
   "status": "partial",
   "theorems": [
    "C91_rejects",
    "C91_evolve",
    "C91_evolve_in_box",
    "C91_batch",
    "C91_best_neighbour",
    "C91_leader",
    "C91_leader_is_best_known_refuted",
    "C91_small_population_refuted",
    "C91_other_dimension_refuted",
    "C91_memory_serialized_refuted",
    "C91_parameters_serialized"
   ],
   "note": "Proved for every run: refusals, evolve with and without batch evaluation on deterministic and stochastic problems, evaluation counts, bounds, best neighbour, leader. Refuted: the leader after a new seed is not the best known point; small rings and kept velocities of another dimension read out of range; memory flag not serialized."
  },
  {
   "property": "C92",
   "status": "proved",
   "theorems": [
    "C92_constructor",
    "C92_constructor_throws",
    "C92_rejects",
    "C92_no_generations",
    "C92_evolve",
    "C92_evolve_in_box",
    "C92_batch",
    "C92_leaders",
    "C92_selection",
    "C92_maxmin_selection_refuted",
    "C92_leader_nondominated_refuted",
    "C92_elitist_refuted",
    "C92_other_dimension_refuted",
    "C92_serialized_refuted",
    "C92_niche_count",
    "C92_niche_leaders",
    "C92_parameters_serialized"
   ],
   "note": "All of nspso: constructor, checks, remembered points, choice of leaders, runs with and without batch evaluation. The loop that draws two distinct leaders has no bound in the code: the model carries fuel and the theorems hold for every run that ends. Five claims a user might expect are refuted, see the theorems ending in _refuted."
  },
  {
   "property": "C93",
   "status": "proved",
   "theorems": [
    "C93_value",
    "C93_constructor",
    "C93_within_bounds",
    "C93_global_minimum_refuted"
   ],
   "note": "Exact arithmetic. That best_known is (nearly) optimal within the bounds is not part of the claim: it is a rounded number."
  }
 ]
}