{
 "claims": [
  {
   "property": "C01",
   "status": "proved",
   "theorems": [
    "C01_population_aligned",
    "C01_population_refines_member_list",
    "C01_reevaluate",
    "C01_wrong_rank_refuted",
    "C01_uncertainty_rows"
   ],
   "note": "C01_wrong_rank_refuted records that add with a 1-D/2-D rank mix-up breaks alignment outside the stated hypotheses."
  },
  {
   "property": "C02",
   "status": "proved",
   "theorems": [
    "C02_keep_exact"
   ],
   "note": ""
  },
  {
   "property": "C03",
   "status": "proved",
   "theorems": [
    "C03_delete_complement"
   ],
   "note": ""
  },
  {
   "property": "C04",
   "status": "proved",
   "theorems": [
    "C04_add_appends"
   ],
   "note": ""
  },
  {
   "property": "C05",
   "status": "proved",
   "theorems": [
    "C05_replace_frame"
   ],
   "note": ""
  },
  {
   "property": "C06",
   "status": "proved",
   "theorems": [
    "C06_repair_clamps",
    "C06_repair_wrong_length",
    "C06_repair_matrix_refuted"
   ],
   "note": "Stated for a decision vector (1-D). C06_repair_matrix_refuted: a 2-D matrix always raises IndexError in the code."
  },
  {
   "property": "C07",
   "status": "proved",
   "theorems": [
    "C07_delete_all_then_add"
   ],
   "note": ""
  },
  {
   "property": "C08",
   "status": "partial",
   "theorems": [
    "C08_mate_in_bounds_partial",
    "C08_mate_in_bounds_refuted"
   ],
   "note": "C08_mate_in_bounds_partial: C08 (partial): for an in-bounds population every offspring gene is NaN or within its bounds; and if every crossed-over gene's draw contracts (miu <= 1/2) every offspring gene is a number within its bounds. | C08_mate_in_bounds_refuted: C08 in full is false of the code: default operators, one variable in [0,1], in-bounds parents 1 and 0, admissible draws: the first child becomes NaN."
  },
  {
   "property": "C09",
   "status": "proved",
   "theorems": [
    "C09_design_in_bounds",
    "C09_default_pop_size"
   ],
   "note": ""
  },
  {
   "property": "C10",
   "status": "proved",
   "theorems": [
    "C10_sbx_pairs"
   ],
   "note": ""
  },
  {
   "property": "C11",
   "status": "proved",
   "theorems": [
    "C11_sbx_mean_preserving"
   ],
   "note": ""
  },
  {
   "property": "C12",
   "status": "proved",
   "theorems": [
    "C12_mutation_in_bounds",
    "C12_default_probability",
    "C12_mutation_distance"
   ],
   "note": ""
  },
  {
   "property": "C13",
   "status": "partial",
   "theorems": [
    "C13_mutation_operator_partial",
    "C13_mutation_repairs_partial",
    "C13_mutation_repairs_refuted"
   ],
   "note": "C13_mutation_operator_partial: C13 (partial). BP_mutation.do with the default distribution index, applied to any matrix of numbers: same shape; a gene that is not mutated is clamped into its bounds; a mutated gene is in bounds unless it lay beyond the bound it is moved away from, so far that the radicand is negative: then, and only then, it becomes NaN. | C13_mutation_repairs_partial: C13 (partial): for any gene value, mutation returns NaN or a number in bounds, and a gene that is not mutated is clamped into its bounds. Missing: mutated out-of-bounds genes can be NaN. | C13_mutation_repairs_refuted: C13 in full is false of the code: with the default DisM = 20, the gene 2 with bounds [0,1], mutated with the admissible draw miu = 0, becomes NaN and the clamps do not catch it."
  },
  {
   "property": "C14",
   "status": "proved",
   "theorems": [
    "C14_single_point_tails",
    "C14_rounding",
    "C14_halves_to_even",
    "C14_binary_children"
   ],
   "note": ""
  },
  {
   "property": "C15",
   "status": "proved",
   "theorems": [
    "C15_mutation_flips_one"
   ],
   "note": ""
  },
  {
   "property": "C16",
   "status": "partial",
   "theorems": [
    "C16_evonn_self_adapting",
    "C16_self_adapting_no_weights_refuted",
    "C16_evodn2_operator",
    "C16_mutation_fades",
    "C16_evonn_mutation_fades",
    "C16_evonn_architecture",
    "C16_evodn2_architecture",
    "C16_evonn_past_end_raises_refuted"
   ],
   "note": "C16_self_adapting_no_weights_refuted: Once no weight is left, the operator raises. | C16_evonn_past_end_raises_refuted: C16: past the planned number of generations EvoNN recombination raises."
  },
  {
   "property": "C17",
   "status": "partial",
   "theorems": [
    "C17_sbx_pairs",
    "C17_single_point_pairs",
    "C17_evonn_pairs_partial",
    "C17_evonn_self_adapting_pairs_partial",
    "C17_evodn2_pairs_partial",
    "C17_partners_ignored_refuted",
    "C17_self_mating_refuted"
   ],
   "note": "C17_evonn_pairs_partial: C17 (partial): given explicit pairs, each of the network operators gives for pair k two children, which are what it gives for the list made of that pair alone. | C17_evonn_self_adapting_pairs_partial: (see the statement) | C17_evodn2_pairs_partial: (see the statement) | C17_partners_ignored_refuted: C17 is false of the network operators given a 1-D mating list: the entries at odd positions (the partners) are never looked at, whatever they are, and every child is made from one single parent. | C17_self_mating_refuted: C17 in full is false for the EvoNN, EvoDN2 and BioGP operators: a 1-D mating list mates every even-positioned entry with itself, the others never mate; without mutation the two children are copies of that one parent."
  },
  {
   "property": "C18",
   "status": "partial",
   "theorems": [
    "C18_budget_overshoot_bounded",
    "C18_exhausted_budget_stops",
    "C18_zero_budget_is_unlimited",
    "C18_upper_limit_refuted"
   ],
   "note": "The >= in the budget test lets a run overshoot; the exact bound is proved, the naive upper limit refuted."
  },
  {
   "property": "C19",
   "status": "proved",
   "theorems": [
    "C19_iterate_generations",
    "C19_run_terminates"
   ],
   "note": ""
  },
  {
   "property": "C20",
   "status": "partial",
   "theorems": [
    "C20_counters",
    "C20_counters_initial_population",
    "C20_surrogate_count_refuted"
   ],
   "note": "C20_surrogate_count_refuted: C20 with surrogates: the initial surrogate evaluations are counted as real ones."
  },
  {
   "property": "C21",
   "status": "partial",
   "theorems": [
    "C21_start_requires_valid_type_partial",
    "C21_rejected_type_partial",
    "C21_rejected_type_changes_nothing_refuted",
    "C21_interactive_initial_population_refuted",
    "C21_iopis_problem_starts",
    "C21_non_interactive_starts",
    "C21_request_for_last_type"
   ],
   "note": "C21_start_requires_valid_type_partial: C21 (partial). For an interactive EA on an ordinary problem and any sequence of set_interaction_type calls: an unknown type raises ValueError and never changes the chosen type; start succeeds iff some call named a documented type. What is missing from the full statement: a rejected call does change which error start raises (refuted below). | C21_rejected_type_partial: (see the statement) | C21_rejected_type_changes_nothing_refuted: C21 in full is false: a rejected (or None) type switches the \"type has been set\" flag on, so start passes its gate and fails later with a ValueError instead of the documented eaError. | C21_interactive_initial_population_refuted: C21: an interactive EA built from an initial population can never be started, whatever interaction types are set (its interaction location stays None)."
  },
  {
   "property": "C22",
   "status": "proved",
   "theorems": [
    "C22_snapshots"
   ],
   "note": ""
  },
  {
   "property": "C23",
   "status": "proved",
   "theorems": [
    "C23_constructor"
   ],
   "note": ""
  },
  {
   "property": "C24",
   "status": "proved",
   "theorems": [
    "C24_archive_never_loses"
   ],
   "note": ""
  },
  {
   "property": "C25",
   "status": "partial",
   "theorems": [
    "C25_archive_mutual_partial",
    "C25_archive_mutual_single_rows_partial",
    "C25_only_same_batch_pairs_partial",
    "C25_archive_mutual_refuted"
   ],
   "note": "C25_archive_mutual_partial: C25 (partial): the archive is mutually non-dominated if no batch contains a solution dominated by another of the same batch (in particular for one-row batches as in MOEA/D). | C25_archive_mutual_single_rows_partial: C25 (partial), one-row batches: no further hypothesis. | C25_only_same_batch_pairs_partial: C25 (partial): whenever an archived solution dominates another, both were submitted in one and the same batch. | C25_archive_mutual_refuted: C25 in full is false of the code: initial archive {(2,2)}, one generation offering (1,1) and (3,3) leaves both in the archive."
  },
  {
   "property": "C26",
   "status": "proved",
   "theorems": [
    "C26_archive_aligned"
   ],
   "note": ""
  },
  {
   "property": "C27",
   "status": "partial",
   "theorems": [
    "C27_one_selection_per_generation",
    "C27_original",
    "C27_interactive",
    "C27_function_count",
    "C27_partial_penalty",
    "C27_function_count_without_budget_refuted"
   ],
   "note": "C27_function_count_without_budget_refuted: \"function_count\" without a budget is accepted, and then every selection fails."
  },
  {
   "property": "C28",
   "status": "partial",
   "theorems": [
    "C28_rejected_partial",
    "C28_out_of_range_float_accepted_refuted",
    "C28_default_function_count_has_budget"
   ],
   "note": "C28_rejected_partial: C28. What is rejected: exactly the strings that are not documented and the values that are neither float nor str - but with UnboundLocalError, not eaError; and the documented defaults. | C28_out_of_range_float_accepted_refuted: ... so floats outside [0,1] are accepted."
  },
  {
   "property": "C29",
   "status": "proved",
   "theorems": [
    "C29_selection_total",
    "C29_one_per_niche"
   ],
   "note": ""
  },
  {
   "property": "C30",
   "status": "proved",
   "theorems": [
    "C30_smallest_apd"
   ],
   "note": ""
  },
  {
   "property": "C31",
   "status": "proved",
   "theorems": [
    "C31_feasible_first"
   ],
   "note": ""
  },
  {
   "property": "C32",
   "status": "proved",
   "theorems": [
    "C32_ideal_step",
    "C32_ideal_history",
    "C32_selection_types",
    "C32_nsga3_ideal_worst",
    "C32_nsga3_exact"
   ],
   "note": ""
  },
  {
   "property": "C33",
   "status": "proved",
   "theorems": [
    "C33_exact_count"
   ],
   "note": ""
  },
  {
   "property": "C34",
   "status": "proved",
   "theorems": [
    "C34_dominators_selected",
    "C34_fronts_in_order"
   ],
   "note": ""
  },
  {
   "property": "C35",
   "status": "proved",
   "theorems": [
    "C35_least_crowded_first",
    "C35_niche_is_nearest_line",
    "C35_normalised_components"
   ],
   "note": ""
  },
  {
   "property": "C36",
   "status": "partial",
   "theorems": [
    "C36_small_population_wiped_refuted",
    "C36_explicit_n_survive_refuted",
    "C36_nonempty_partial"
   ],
   "note": "C36_small_population_wiped_refuted: C36, as claimed, fails: a population smaller than n_survive is wiped out (the selection is empty), and an explicitly given n_survive makes every selection raise. | C36_explicit_n_survive_refuted: (see the statement) | C36_nonempty_partial: What holds: with the default n_survive and at least that many (and at least one) individuals the selection is not empty. Missing: smaller populations, and honouring an explicit n_survive."
  },
  {
   "property": "C37",
   "status": "proved",
   "theorems": [
    "C37_subproblem_step",
    "C37_generation_keeps_size",
    "C37_generation_never_worsens"
   ],
   "note": ""
  },
  {
   "property": "C38",
   "status": "proved",
   "theorems": [
    "C38_weights_without_zeros",
    "C38_exactly_the_improved"
   ],
   "note": ""
  },
  {
   "property": "C39",
   "status": "partial",
   "theorems": [
    "C39_lattice_sized_population_partial",
    "C39_more_members_than_vectors_refuted",
    "C39_matching_sizes_partial"
   ],
   "note": "C39_lattice_sized_population_partial: C39 (positive part). With a population of lattice size (such as the default size) MOEA/D's reference vectors match the population, and a generation never fails. | C39_more_members_than_vectors_refuted: C39. A run visits [pop_size] subproblems but there are only as many neighbourhoods as vectors. | C39_matching_sizes_partial: (see the statement)"
  },
  {
   "property": "C40",
   "status": "partial",
   "theorems": [
    "C40_best_of_each_tournament",
    "C40_total",
    "C40_last_individual_never_chosen_refuted",
    "C40_full_tournament_refuted"
   ],
   "note": "C40_last_individual_never_chosen_refuted: ... but the last individual never takes part, whatever its fitness, and a tournament of everybody is refused. | C40_full_tournament_refuted: (see the statement)"
  },
  {
   "property": "C41",
   "status": "proved",
   "theorems": [
    "C41_environmental_selection",
    "C41_generation"
   ],
   "note": ""
  },
  {
   "property": "C42",
   "status": "proved",
   "theorems": [
    "C42_assignment_exact",
    "C42_each_removal_exact",
    "C42_loop_exact"
   ],
   "note": ""
  },
  {
   "property": "C43",
   "status": "partial",
   "theorems": [
    "C43_without_interaction_ends_partial",
    "C43_used_up_budget_ends_partial",
    "C43_interactive_indicator_never_ends_refuted",
    "C43_budget_outgrows_the_run_refuted"
   ],
   "note": "C43_without_interaction_ends_partial: (see the statement) | C43_used_up_budget_ends_partial: C43. With or without interaction, a returned iterate() that was cut short by the evaluation budget is the last one. | C43_interactive_indicator_never_ends_refuted: (see the statement) | C43_budget_outgrows_the_run_refuted: (see the statement)"
  },
  {
   "property": "C44",
   "status": "proved",
   "theorems": [
    "C44_lattice_complete",
    "C44_values_sum_to_one"
   ],
   "note": ""
  },
  {
   "property": "C45",
   "status": "partial",
   "theorems": [
    "C45_maximal_resolution",
    "C45_lattice_size_roundtrip",
    "C45_one_objective_refuted",
    "C45_few_vectors_refuted"
   ],
   "note": "C45_one_objective_refuted: C45 fails outside these bounds: a single objective makes the search run for ever ... | C45_few_vectors_refuted: ... and fewer vectors than objectives give resolution 0, for which every vector is NaN."
  },
  {
   "property": "C46",
   "status": "proved",
   "theorems": [
    "C46_unit_length",
    "C46_uniform_creation",
    "C46_adapt_unit",
    "C46_planar_sum",
    "C46_number_of_vectors"
   ],
   "note": ""
  },
  {
   "property": "C47",
   "status": "partial",
   "theorems": [
    "C47_no_trace",
    "C47_ranges",
    "C47_idempotent",
    "C47_planar_trace_refuted"
   ],
   "note": "C47_planar_trace_refuted: The planar copies do keep a trace: after a reference point interaction adapting again restores the number of vectors but not the number of planar copies."
  },
  {
   "property": "C48",
   "status": "partial",
   "theorems": [
    "C48_rotation",
    "C48_parallel_refuted"
   ],
   "note": "C48_parallel_refuted: Equal or opposite vectors give NaN instead of the identity."
  },
  {
   "property": "C49",
   "status": "partial",
   "theorems": [
    "C49_turns_by_angle",
    "C49_parallel_refuted"
   ],
   "note": "C49_parallel_refuted: When the initial vector already is the final one, or is opposite to it, there is no result (NaN or a singular system)."
  },
  {
   "property": "C50",
   "status": "proved",
   "theorems": [
    "C50_edges_present",
    "C50_directions_kept",
    "C50_edges_accumulate"
   ],
   "note": ""
  },
  {
   "property": "C51",
   "status": "partial",
   "theorems": [
    "C51_never_empty",
    "C51_preferred_solutions",
    "C51_preferred_solutions_planar",
    "C51_reference_point_planar",
    "C51_ranges_planar",
    "C51_non_preferred_solutions",
    "C51_all_named_resets",
    "C51_all_removed_refuted",
    "C51_none_preferred_refuted"
   ],
   "note": "C51_all_removed_refuted: But when the removal leaves nothing the set is not restored: only the axis vectors survive. | C51_none_preferred_refuted: No preferred solution at all: an exception."
  },
  {
   "property": "C52",
   "status": "proved",
   "theorems": [
    "C52_lattice_consistent",
    "C52_predator_count",
    "C52_no_sharing",
    "C52_generation"
   ],
   "note": ""
  },
  {
   "property": "C53",
   "status": "proved",
   "theorems": [
    "C53_at_least_target",
    "C53_predators_stop_at_target",
    "C53_never_extinct"
   ],
   "note": ""
  },
  {
   "property": "C54",
   "status": "partial",
   "theorems": [
    "C54_placed_exactly",
    "C54_attempts_useless_refuted"
   ],
   "note": "C54_attempts_useless_refuted: \"offspring_place_attempts\" has no effect beyond the first attempt: an offspring whose first cell is taken is lost although free cells remain."
  },
  {
   "property": "C55",
   "status": "partial",
   "theorems": [
    "C55_wrap",
    "C55_neighbourhood",
    "C55_moore",
    "C55_not_centred_refuted"
   ],
   "note": "C55_not_centred_refuted: (see the statement)"
  },
  {
   "property": "C56",
   "status": "proved",
   "theorems": [
    "C56_ideal_never_worsens",
    "C56_ideal_is_best_seen",
    "C56_nadir_fixed",
    "C56_map_follows_ideal",
    "C56_ideal_fitness_bounds"
   ],
   "note": ""
  },
  {
   "property": "C57",
   "status": "partial",
   "theorems": [
    "C57_selection_preferences",
    "C57_latest_request_only",
    "C57_request_returns_partial",
    "C57_preferred_ranges_request_refuted",
    "C57_indicator_preferences",
    "C57_iopis_preferences",
    "C57_iopis_problem_preferences"
   ],
   "note": "C57_request_returns_partial: C57: requests. Three interaction types hand out the stored id; \"Preferred ranges\" stores an id but returns nothing (missing return), so its preference can never be given. | C57_preferred_ranges_request_refuted: (see the statement)"
  },
  {
   "property": "C58",
   "status": "partial",
   "theorems": [
    "C58_returned_are_new",
    "C58_exact_partial",
    "C58_not_in_archive_partial",
    "C58_repeated_archive_refuted",
    "C58_new_candidate_dropped_refuted"
   ],
   "note": "C58_exact_partial: C58. If the archive has no repeated row, exactly the new candidates are returned. | C58_not_in_archive_partial: In particular, with distinct candidates: exactly those not in the archive. | C58_repeated_archive_refuted: C58 fails when the archive repeats a row at position p (an evaluated row may be evaluated again): either IndexError, or the candidate as far from the end of X as p is from the end of the archive is dropped, new or not. | C58_new_candidate_dropped_refuted: (see the statement)"
  },
  {
   "property": "C59",
   "status": "partial",
   "theorems": [
    "C59_u_new_candidates_partial",
    "C59_nothing_new",
    "C59_too_few_candidates_refuted",
    "C59_first_candidates_refuted",
    "C59_preferred_and_certain_partial",
    "C59_worst_evaluated_refuted"
   ],
   "note": "C59_u_new_candidates_partial: C59, what holds: with an archive without repetitions and more than 2u new candidates, exactly u distinct new candidates are evaluated. | C59_too_few_candidates_refuted: C59 fails: with at least one but at most 2u new candidates nothing is evaluated either, an exception is raised. | C59_first_candidates_refuted: C59 fails: the evaluated candidates are always among the first 2u new ones, however bad their preference value is. | C59_preferred_and_certain_partial: C59, what else holds: if the 2u preferred new candidates happen to come first, in the order the partition gives them, then the evaluated ones are u of them with the smallest largest-uncertainty. | C59_worst_evaluated_refuted: C59, concretely: whatever partition is used, with these four new candidates the evaluated one has a worse preference value than two others."
  },
  {
   "property": "C60",
   "status": "proved",
   "theorems": [
    "C60_grown_trees",
    "C60_new_individual",
    "C60_growing_succeeds"
   ],
   "note": ""
  },
  {
   "property": "C61",
   "status": "proved",
   "theorems": [
    "C61_crossover",
    "C61_exchange"
   ],
   "note": ""
  },
  {
   "property": "C62",
   "status": "partial",
   "theorems": [
    "C62_standard_mutation",
    "C62_mono_parental_partial",
    "C62_small_mutation_partial",
    "C62_small_mutation_refuted",
    "C62_mono_parental_refuted"
   ],
   "note": "C62_mono_parental_partial: Mono-parental mutation: a well-formed individual results; either with the values it had, or with one subtree replaced by a part of itself (what else it held is gone). Missing: the depth (refuted below). | C62_small_mutation_partial: Small mutation: shape and depth stay; the individual stays well formed if no function node with arguments is turned into a terminal, i.e. whenever the first of the two draws of such a node fails then so does the second. | C62_small_mutation_refuted: Small mutation can turn a function node into a terminal that keeps its children. | C62_mono_parental_refuted: (see the statement)"
  },
  {
   "property": "C63",
   "status": "partial",
   "theorems": [
    "C63_akaike_takes_the_first",
    "C63_akaike_partial",
    "C63_min_error_refuted",
    "C63_evodn2_min_error",
    "C63_evodn2_other_criterion",
    "C63_criterion",
    "C63_akaike_refuted"
   ],
   "note": "C63_akaike_partial: So the claim holds if the first member is a best one. | C63_min_error_refuted: With min_error training always ends in an IndexError, after the (right) network has been stored; the model stays untrained. | C63_akaike_refuted: The default criterion picks the worse of the two networks."
  },
  {
   "property": "C64",
   "status": "partial",
   "theorems": [
    "C64_subsets_cover",
    "C64_refit_refuted"
   ],
   "note": "C64_refit_refuted: A second fit of the same object keeps the subsets of the first: with more variables the new ones are in no subset."
  },
  {
   "property": "C65",
   "status": "partial",
   "theorems": [
    "C65_next_appends_one",
    "C65_init",
    "C65_history",
    "C65_names_partial",
    "C65_names_refuted",
    "C65_one_objective_refuted",
    "C65_frames_and_lists_refuted",
    "C65_dataframe_partial",
    "C65_empty_population",
    "C65_never_loses"
   ],
   "note": "C65_names_partial: Without explicit generation numbers (or with the iteration counters 1, 2, 3, ... of the surrogate trainings) the frames are named 0, 1, 2, ...: the slider is unambiguous. | C65_names_refuted: Mixing explicit and automatic numbers gives two frames of the same name. | C65_one_objective_refuted: One objective: no figure can be started, and a further population is silently left out. | C65_frames_and_lists_refuted: The documented DataFrame (two or three objectives) and list arguments are not accepted; the figure stays as it was. | C65_dataframe_partial: A DataFrame of four or more objectives is accepted exactly if one of its columns is labelled 0 (the integer); then the new frame shows every column under its own label, with its own range."
  },
  {
   "property": "C66",
   "status": "proved",
   "theorems": [
    "C66_end_returns_non_dominated"
   ],
   "note": ""
  },
  {
   "property": "C67",
   "status": "proved",
   "theorems": [
    "C67_sbx_operator",
    "C67_sbx_spread"
   ],
   "note": ""
  },
  {
   "property": "C68",
   "status": "proved",
   "theorems": [
    "C68_self_adapting_revives",
    "C68_evodn2_zero_stays_zero",
    "C68_evonn_zero_stays_zero",
    "C68_zero_weights_stay_zero"
   ],
   "note": ""
  },
  {
   "property": "C69",
   "status": "proved",
   "theorems": [
    "C69_lhs_stratified"
   ],
   "note": ""
  },
  {
   "property": "C70",
   "status": "partial",
   "theorems": [
    "C70_evonn_created_shape",
    "C70_evonn_omitted_weights",
    "C70_evonn_any_weights_omitted",
    "C70_evodn2_created_chain",
    "C70_evodn2_omitted_weights",
    "C70_single_layer_networks_refuted",
    "C70_evonn_training_networks_partial",
    "C70_evonn_training_bias_refuted"
   ],
   "note": "C70_single_layer_networks_refuted: C70: max_layers itself is never reached, and max_layers = 1 raises. | C70_evonn_training_networks_partial: A table of pop_size x (1 + in_nodes) x num_nodes numbers, the biases (1) included, of which ceil(size * p_omit) drawn positions are set to 0. | C70_evonn_training_bias_refuted: So a bias need not be 1."
  },
  {
   "property": "C71",
   "status": "proved",
   "theorems": [
    "C71_axis_value",
    "C71_extreme_points",
    "C71_after_selection"
   ],
   "note": ""
  },
  {
   "property": "C72",
   "status": "proved",
   "theorems": [
    "C72_nearest_vectors",
    "C72_contains_itself"
   ],
   "note": ""
  },
  {
   "property": "C73",
   "status": "proved",
   "theorems": [
    "C73_removed_is_not_better"
   ],
   "note": ""
  },
  {
   "property": "C74",
   "status": "partial",
   "theorems": [
    "C74_mating_prefers_the_worst_refuted"
   ],
   "note": "C74_mating_prefers_the_worst_refuted: C74 (false of the code). Environmental selection removes the smallest fitness, so large is good; the tournament that chooses parents prefers the smallest. The member about to be removed next wins every tournament it takes part in."
  },
  {
   "property": "C75",
   "status": "proved",
   "theorems": [
    "C75_smallest_angle",
    "C75_repeated_vector"
   ],
   "note": ""
  },
  {
   "property": "C76",
   "status": "partial",
   "theorems": [
    "C76_interactions_accepted_partial",
    "C76_skipped_interaction_refuted"
   ],
   "note": "C76_interactions_accepted_partial: (see the statement) | C76_skipped_interaction_refuted: Missing: skipping one interaction (preference None) after a reference point makes the next non-preferred-solutions interaction raise IndexError, always."
  },
  {
   "property": "C77",
   "status": "partial",
   "theorems": [
    "C77_focused",
    "C77_sparse_focused",
    "C77_on_axis_refuted"
   ],
   "note": "C77_on_axis_refuted: A reference point on the last axis (also the zero point) gives NaN."
  },
  {
   "property": "C78",
   "status": "partial",
   "theorems": [
    "C78_slow_step",
    "C78_unnormalised_refuted",
    "C78_exact_angle_refuted"
   ],
   "note": "C78_unnormalised_refuted: If the point is given without normalisation, the call after reaching it has no result (NaN). | C78_exact_angle_refuted: Exactly 5 degrees away: the centre lands on the point but the call reports \"not reached\", and the next call reports nothing."
  },
  {
   "property": "C79",
   "status": "proved",
   "theorems": [
    "C79_kills_the_weakest",
    "C79_weights"
   ],
   "note": ""
  },
  {
   "property": "C80",
   "status": "proved",
   "theorems": [
    "C80_mating_pairs",
    "C80_mates_are_neighbours"
   ],
   "note": ""
  },
  {
   "property": "C81",
   "status": "proved",
   "theorems": [
    "C81_only_the_mating_error",
    "C81_lattice_capacity"
   ],
   "note": ""
  },
  {
   "property": "C82",
   "status": "proved",
   "theorems": [
    "C82_culls_by_front",
    "C82_culled_are_dominated",
    "C82_culled_chain",
    "C82_someone_survives"
   ],
   "note": ""
  },
  {
   "property": "C83",
   "status": "partial",
   "theorems": [
    "C83_reevaluated_fitness_current_partial",
    "C83_preference_applied",
    "C83_preference_applied_by_algorithm",
    "C83_stale_fitness_refuted"
   ],
   "note": "C83_reevaluated_fitness_current_partial: C83. Giving preferences through the EA re-evaluates the population; the stored fitness is what a fresh evaluation gives, provided the population's own ideal and nadir vectors coincide with the problem's (updated) ones. | C83_stale_fitness_refuted: (see the statement)"
  },
  {
   "property": "C84",
   "status": "partial",
   "theorems": [
    "C84_iopis_iterate_fails_refuted",
    "C84_iopis_start_fails_refuted",
    "C84_plain_iterates_partial",
    "C84_iteration_prepared",
    "C84_interaction_type_set",
    "C84_start_needs_type"
   ],
   "note": "C84_iopis_iterate_fails_refuted: C84. The IOPIS algorithms fail in every iteration: the selection operators have no working adapt_RVs, which every iteration calls since the interaction location is not \"Selection\". Nor can they be started: the interaction type cannot be set. | C84_iopis_start_fails_refuted: (see the statement) | C84_plain_iterates_partial: The plain algorithms do not have this problem."
  },
  {
   "property": "C85",
   "status": "partial",
   "theorems": [
    "C85_selection_total",
    "C85_one_per_niche",
    "C85_smallest_apd_partial",
    "C85_alpha_ignored_refuted"
   ],
   "note": "C85_smallest_apd_partial: C85. It has the smallest angle penalised distance of its niche (the first on a tie), with the penalty time^2 * number of scalarisations cut to at most 1, whatever alpha was asked for. | C85_alpha_ignored_refuted: C85, the part that fails: alpha is a parameter of the algorithm but has no effect."
  },
  {
   "property": "C86",
   "status": "partial",
   "theorems": [
    "C86_exact_count",
    "C86_every_selection",
    "C86_dominators_selected",
    "C86_ideal_step",
    "C86_explicit_n_survive_refuted"
   ],
   "note": "C86_explicit_n_survive_refuted: C86, the part that fails: an explicit n_survive makes every selection fail."
  },
  {
   "property": "C87",
   "status": "proved",
   "theorems": [
    "C87_call_binding",
    "C87_malformed_call_rejected",
    "C87_settings_as_given",
    "C87_own_options_as_given",
    "C87_total_generations",
    "C87_decomposition_population",
    "C87_indicator_population",
    "C87_prey_population",
    "C87_iopis_population",
    "C87_RVEA_alpha",
    "C87_MOEAD_two_parents",
    "C87_RVEA_time_penalty",
    "C87_documented_calls_succeed",
    "C87_both_or_neither_refused"
   ],
   "note": ""
  },
  {
   "property": "C88",
   "status": "partial",
   "theorems": [
    "C88_which_subtrees_go",
    "C88_individual_kept",
    "C88_one_pruned_partial",
    "C88_succeeds",
    "C88_right_subtrees_refuted"
   ],
   "note": "C88_one_pruned_partial: With at most one error ratio below the limit the right subtree goes, and nothing goes otherwise. | C88_right_subtrees_refuted: Three orthogonal columns, y the third variable; the fit is perfect, the first two subtrees contribute nothing. The first and the third subtree are removed: the useless second one stays, the only useful one goes."
  },
  {
   "property": "C89",
   "status": "partial",
   "theorems": [
    "C89_recorded_output_partial",
    "C89_complexity_is_of_the_final_tree",
    "C89_recorded_output_refuted"
   ],
   "note": "C89_recorded_output_partial: When nothing was pruned and no bare denominator has a zero: predicting the training data with the node that calculate_linear leaves behind gives the output it recorded (and used for the loss). | C89_recorded_output_refuted: ... and the weights kept are those of the old subtrees: predicting the training data gives something else than the recorded output."
  },
  {
   "property": "C90",
   "status": "partial",
   "theorems": [
    "C90_effect_on_data",
    "C90_value_partial",
    "C90_prediction_partial",
    "C90_prediction_effect",
    "C90_variable_column",
    "C90_data_unchanged_refuted",
    "C90_same_prediction_twice_refuted",
    "C90_value_refuted"
   ],
   "note": "C90_value_partial: If no bare denominator has a zero, the data are untouched and the result is the mathematical value of the expression. | C90_prediction_partial: The same for a prediction of the whole model: the weighted sum of the values of the subtrees, the data untouched, hence repeatable. | C90_data_unchanged_refuted: (see the statement) | C90_same_prediction_twice_refuted: (see the statement) | C90_value_refuted: (see the statement)"
  },
  {
   "property": "C91",
   "status": "partial",
   "theorems": [
    "C91_individuals",
    "C91_size_full_grow",
    "C91_size_ramped",
    "C91_size_ramped_partial",
    "C91_population_size_refuted",
    "C91_unknown_method_refuted"
   ],
   "note": "C91_size_ramped_partial: ... which is pop_size if max_depth is odd and max_depth + 1 divides pop_size. | C91_population_size_refuted: The default pop_size 500 with max_depth 4: 600 individuals; with max_depth 5 (default): 498; an unknown method: none, without an error. | C91_unknown_method_refuted: (see the statement)"
  },
  {
   "property": "C92",
   "status": "partial",
   "theorems": [
    "C92_height_fair_keeps_depth",
    "C92_standard_depth_partial",
    "C92_standard_depth_refuted"
   ],
   "note": "C92_standard_depth_partial: Standard crossover: only the sum of the depths bounds the result. Missing for the property: the bound max_depth itself, which fails (below). | C92_standard_depth_refuted: Standard crossover exceeds max_depth: two parents of depth at most 3, an offspring of depth 4."
  },
  {
   "property": "C93",
   "status": "partial",
   "theorems": [
    "C93_pairs_refuted",
    "C93_every_second",
    "C93_no_exchange_between_individuals"
   ],
   "note": "C93_pairs_refuted: With ids given as a plain list (as Population.mate does, and as without ids), every pair is an individual with itself: each second one of the list."
  },
  {
   "property": "C94",
   "status": "partial",
   "theorems": [
    "C94_evonn_reproduces",
    "C94_evodn2_reproduces",
    "C94_best_output_layer",
    "C94_evonn_untrained",
    "C94_evonn_new_model",
    "C94_evonn_failed_training",
    "C94_evodn2_untrained_refuted"
   ],
   "note": "C94_evodn2_untrained_refuted: EvoDN2 does not check: an AttributeError instead."
  },
  {
   "property": "C95",
   "status": "proved",
   "theorems": [
    "C95_complexity_is_path_weight",
    "C95_zero_complexity"
   ],
   "note": ""
  },
  {
   "property": "C96",
   "status": "proved",
   "theorems": [
    "C96_created_networks_evaluate",
    "C96_selection_succeeds"
   ],
   "note": ""
  },
  {
   "property": "C97",
   "status": "partial",
   "theorems": [
    "C97_reference_point",
    "C97_preferred_solutions_partial",
    "C97_preferred_solutions_refuted",
    "C97_preferred_ranges",
    "C97_ranges_grow"
   ],
   "note": "C97_preferred_solutions_partial: Preferred solutions: the same towards the direction [d] of every preferred objective vector z - as seen from the origin of objective space. | C97_preferred_solutions_refuted: That origin is not the ideal point, from which selection measures the directions: with a preferred solution (-1, -1) and ideal point (-2, -3/2) the vector (0, 1) is turned away from the solution, out of the positive orthant."
  },
  {
   "property": "C98",
   "status": "partial",
   "theorems": [
    "C98_network_trains_with_PPGA",
    "C98_network_other_algorithms_refuted",
    "C98_network_size_refuted",
    "C98_biogp_never_trains_refuted",
    "C98_biogp_default_refuted",
    "C98_biogp_two_objective_stage",
    "C98_biogp_decomposition_refuted"
   ],
   "note": "C98_network_other_algorithms_refuted: ... and with no other class: whatever the data and the operators, the call that should start the training raises, or (TournamentEA) the first generation does. | C98_network_size_refuted: The target size of the training run is PPGA's default 100, whatever [pop_size] the model was given. | C98_biogp_never_trains_refuted: BioGP: with at least one single objective generation (the default is ten) training always raises TypeError, whatever the data, sizes and algorithm: TournamentEA calls its selection operator without the fitness argument. | C98_biogp_default_refuted: (see the statement) | C98_biogp_decomposition_refuted: (see the statement)"
  },
  {
   "property": "C99",
   "status": "partial",
   "theorems": [
    "C99_IK_RVEA_refuted",
    "C99_IOPIS_alpha_refuted",
    "C99_PPGA_ignores_problem_refuted"
   ],
   "note": "C99_IK_RVEA_refuted: IK-RVEA cannot be constructed at all: its constructor passes [a_priori] to RVEA's, which has no such parameter. | C99_IOPIS_alpha_refuted: IOPIS/RVEA takes [alpha] but its selection always uses 2; RVEA's selection uses the given [alpha]. | C99_PPGA_ignores_problem_refuted: PPGA takes a problem and population parameters and looks at neither."
  },
  {
   "property": "C100",
   "status": "partial",
   "theorems": [
    "C100_snapshot_labels_partial",
    "C100_end_returns_archive_partial",
    "C100_no_archive",
    "C100_failed_snapshot_changes_nothing",
    "C100_snapshot_fails_iff",
    "C100_run_history_partial",
    "C100_objective_labels_refuted",
    "C100_vector_fitness_refuted",
    "C100_mixed_objectives_refuted",
    "C100_plot_table_partial",
    "C100_plot_table_refuted",
    "C100_vector_fitnesses_refuted",
    "C100_plot_vector_objectives_refuted",
    "C100_single_vector_fitness_refuted"
   ],
   "note": "C100_snapshot_labels_partial: C100 (partial: fitness components must have scalar names, and objectives be all scalar or all vector). Before an iteration, and at the end, the snapshot of the current generation is stored with correctly labelled tables, and the snapshots of all other generations are kept; nothing else changes. | C100_end_returns_archive_partial: C100 (same hypotheses): [end] returns the archive including that last snapshot. | C100_run_history_partial: (see the statement) | C100_objective_labels_refuted: (see the statement) | C100_vector_fitness_refuted: (see the statement) | C100_mixed_objectives_refuted: (see the statement) | C100_plot_table_partial: C100. The plot request shows the objectives under their own names, provided all objectives are scalar; ... | C100_plot_table_refuted: ... with two vector objectives it fails. | C100_vector_fitnesses_refuted: Two or more vector-valued fitnesses: no snapshot can ever be stored, although every array has one column per name. | C100_plot_vector_objectives_refuted: Likewise the table of the plot request with two or more vector-valued objectives. | C100_single_vector_fitness_refuted: One vector-valued fitness: whenever the snapshot can be stored at all, the columns of the fitness table are labelled with one-tuples of the names instead of the names, and the objectives with the fitness names."
  },
  {
   "property": "C101",
   "status": "partial",
   "theorems": [
    "C101_nadir_between",
    "C101_extreme_points_on_simplex",
    "C101_fallback_refuted"
   ],
   "note": "C101_fallback_refuted: C101, read with the names of the parameters (\"otherwise the worst of the first front\"), fails: the caller swaps the two arguments, and the fallback is the worst of the whole population."
  },
  {
   "property": "C102",
   "status": "proved",
   "theorems": [
    "C102_reported_rows_were_evaluated"
   ],
   "note": ""
  },
  {
   "property": "C103",
   "status": "partial",
   "theorems": [
    "C103_archive_of_a_run",
    "C103_start_first",
    "C103_changed_preferences_refuted"
   ],
   "note": "C103_changed_preferences_refuted: C103 does not survive a change of preferences (IOPIS, BaseEA.py:272-276): the fitness of the archive's rows is that of the time they were evaluated, and solutions dropped then are not reconsidered. Here x = 5 is dropped at start(); with the new fitness g it is neither archived nor is any archived row as good as it."
  },
  {
   "property": "C104",
   "status": "partial",
   "theorems": [
    "C104_iterate_counts",
    "C104_failed_iterate",
    "C104_budget",
    "C104_run_counts_everything",
    "C104_fresh_object",
    "C104_run_on_population",
    "C104_loops_complete",
    "C104_surrogate_constructor_refuted",
    "C104_indicator_surrogates_refuted",
    "C104_failed_generation_uncounted_refuted",
    "C104_continues",
    "C104_loop"
   ],
   "note": "C104_surrogate_constructor_refuted: C104 with surrogates: the constructor counts the initial rows although the surrogates evaluated them. | C104_indicator_surrogates_refuted: C104: an indicator-based algorithm asked to use surrogates evaluates every offspring with the problem itself (BaseIndicatorEA.py:125 does not pass the setting on). | C104_failed_generation_uncounted_refuted: C104: offspring evaluated in a generation whose selection raises are not counted."
  },
  {
   "property": "C105",
   "status": "proved",
   "theorems": [
    "C105_decomposition_generation",
    "C105_moead_generation",
    "C105_indicator_generation",
    "C105_tournament_generation",
    "C105_ppga_generation"
   ],
   "note": ""
  },
  {
   "property": "C106",
   "status": "partial",
   "theorems": [
    "C106_ibea_keeps_dominators",
    "C106_pbea_keeps_dominators_partial",
    "C106_pbea_maximised_refuted"
   ],
   "note": "C106_pbea_keeps_dominators_partial: C106. PBEA when all objectives are minimised (fitness and objectives are the same), for every reference point and every population ... | C106_pbea_maximised_refuted: (see the statement)"
  },
  {
   "property": "C107",
   "status": "partial",
   "theorems": [
    "C107_limits_double",
    "C107_rejected_preference",
    "C107_accepted_preference",
    "C107_interactive_start_refuted",
    "C107_counters",
    "C107_iteration_length"
   ],
   "note": "C107_interactive_start_refuted: C107 (false of the code). start(), the documented way to begin, raises in every session of an interactive indicator EA, whatever types are set before."
  },
  {
   "property": "C108",
   "status": "partial",
   "theorems": [
    "C108_pulled_towards_reference",
    "C108_order_kept",
    "C108_third_axis_refuted",
    "C108_all_parallel_refuted",
    "C108_three_objectives_only_refuted"
   ],
   "note": "C108_third_axis_refuted: No result (NaN) for a reference point on the third axis - the preference for one objective alone - or when all vectors are parallel to the reference direction, for instance when there is only one and it has been reached. | C108_all_parallel_refuted: (see the statement) | C108_three_objectives_only_refuted: Any other number of objectives raises ValueError: the axis is written out for three."
  },
  {
   "property": "C109",
   "status": "partial",
   "theorems": [
    "C109_vectors_around_reference",
    "C109_unit_nonnegative_close",
    "C109_no_trace",
    "C109_duplicates_refuted"
   ],
   "note": "C109_duplicates_refuted: But every vector is there (at least) twice, the recorded number of vectors and the planar copies are left as they were; with an odd number recorded it never matches, and the next non-preferred-solutions interaction raises IndexError when the number of planar copies is odd."
  },
  {
   "property": "C110",
   "status": "proved",
   "theorems": [
    "C110_nsga3_runs_on",
    "C110_rvea_runs_on",
    "C110_moead_runs_on",
    "C110_indicator_runs_on",
    "C110_tournament_runs_on"
   ],
   "note": ""
  },
  {
   "property": "C111",
   "status": "partial",
   "theorems": [
    "C111_transition_arrives",
    "C111_transition_turns",
    "C111_exact_multiple_refuted"
   ],
   "note": "C111_exact_multiple_refuted: \"It always reaches the target\" fails (in exact arithmetic) whenever the angle is a multiple of theta: the turn number N lands exactly on the target without the loop noticing, and the next turn divides 0 by 0. The demonstration in the module does this twice (45 and 90 degrees in steps of 5)."
  },
  {
   "property": "C112",
   "status": "partial",
   "theorems": [
    "C112_mean_as_before",
    "C112_optimistic_as_before",
    "C112_robust_refuted"
   ],
   "note": "C112_robust_refuted: (see the statement)"
  },
  {
   "property": "C113",
   "status": "partial",
   "theorems": [
    "C113_values",
    "C113_snapshots_frozen",
    "C113_archives_stay",
    "C113_added_arrays_kept",
    "C113_direct_replace_refuted",
    "C113_first_add_shared_refuted"
   ],
   "note": "C113_direct_replace_refuted: Refuted: [replace] called without an addition in between rewrites the archived table, which then shows the new population. | C113_first_add_shared_refuted: Refuted: the array handed to the first [add] becomes the population's own, and a later [replace] changes the caller's array."
  },
  {
   "property": "C114",
   "status": "partial",
   "theorems": [
    "C114_random_design_in_bounds",
    "C114_lhs_design_nearly_in_bounds",
    "C114_lhs_design_refuted"
   ],
   "note": "C114_lhs_design_refuted: Refuted: a Latin hypercube sample can be 1 (the last of four strata, a draw close to 1), and then the initial gene can lie above its bound."
  },
  {
   "property": "C115",
   "status": "partial",
   "theorems": [
    "C115_identical_parents",
    "C115_sum_nearly_kept",
    "C115_copied_nearly",
    "C115_copied_refuted"
   ],
   "note": "C115_copied_refuted: Refuted: a gene that is not crossed over need not be copied: the smaller parent's gene is lost, and leaves the range of the parents."
  },
  {
   "property": "C116",
   "status": "partial",
   "theorems": [
    "C116_reported_rows_were_evaluated",
    "C116_own_counters",
    "C116_others_untouched",
    "C116_same_result",
    "C116_result_not_own_refuted"
   ],
   "note": "C116_result_not_own_refuted: C116: the result of an object is not its own. Object 0 has run and its end() returns x = 7 and 6; after an iterate() of object 1, which leaves everything object 0 holds as it was, object 0's end() returns x = 4 and 12: 4 is dominated by the 7 it had."
  },
  {
   "property": "C117",
   "status": "partial",
   "theorems": [
    "C117_best_kept_while_they_fit",
    "C117_no_survivor_beaten_by_a_dropped_row",
    "C117_best_lost_refuted"
   ],
   "note": "C117_best_lost_refuted: With n_survive = 1, two selections in a row (the operator's state carried over): the best row (0, 2) is dropped for the equally unbeaten (2, 0), and this for the offspring (1, 3), which the dropped row beats; the survivor is beaten by a row that was in the population."
  },
  {
   "property": "C118",
   "status": "partial",
   "theorems": [
    "C118_refused_preference",
    "C118_iteration",
    "C118_iteration_returns",
    "C118_other_calls",
    "C118_iteration_counter",
    "C118_untyped_iteration_refuted",
    "C118_initial_population_ignores_preferences_refuted",
    "C118_non_interactive",
    "C118_preferred_ranges_refuted"
   ],
   "note": "C118_untyped_iteration_refuted: C118 (false of the code). \"An iterate() that raises for lack of an interaction type does nothing\": without a type, iterate() runs the whole iteration, counts it, and raises then, when asking for the next preference; every such call does it again. | C118_initial_population_ignores_preferences_refuted: (see the statement) | C118_preferred_ranges_refuted: C118 (false of the code). \"The user can answer in every interaction type\": while \"Preferred ranges\" is the only type chosen, no call of the session hands out anything to answer."
  },
  {
   "property": "C119",
   "status": "proved",
   "theorems": [
    "C119_adaptation_refines",
    "C119_adaptation_keeps_the_subproblems",
    "C119_run_never_worsens"
   ],
   "note": ""
  },
  {
   "property": "C120",
   "status": "partial",
   "theorems": [
    "C120_answers_refine",
    "C120_answer_is_followed_partial",
    "C120_only_the_first_preferred_solution_refuted",
    "C120_answers_keep_the_neighbourhoods",
    "C120_non_preferred_breaks_refuted",
    "C120_no_preference_afterwards_refuted"
   ],
   "note": "C120_answer_is_followed_partial: (see the statement) | C120_only_the_first_preferred_solution_refuted: (see the statement) | C120_non_preferred_breaks_refuted: C120 (false of the code). \"Non-preferred solutions only remove directions\": when so many vectors are removed that, with the axis vectors added, fewer remain than before, every iteration that has a generation to run raises. | C120_no_preference_afterwards_refuted: (see the statement)"
  },
  {
   "property": "C121",
   "status": "partial",
   "theorems": [
    "C121_rvea_origin",
    "C121_rvea_unit",
    "C121_nsga3_origin",
    "C121_nsga3_units_refuted",
    "C121_moead_origin",
    "C121_ibea_origin",
    "C121_moead_unit",
    "C121_ibea_unit_with_kappa",
    "C121_ibea_units_refuted"
   ],
   "note": "C121_nsga3_units_refuted: C121 (false of the code). \"Nor on their units\": dividing both objectives by 10000 changes which of two solutions NSGA-III takes for the extreme ones. | C121_ibea_units_refuted: C121 (false of the code). \"Nor on the unit in which the objectives are expressed\": whatever kappa, there is a population of which IBEA drops one of two copies of a solution, and of which it drops the only different solution when every objective is divided by ten."
  },
  {
   "property": "C122",
   "status": "proved",
   "theorems": [
    "C122_rvea_individuals",
    "C122_rvea_objectives",
    "C122_neighbouring_angles",
    "C122_ibea_individuals",
    "C122_nsga3_objectives",
    "C122_ibea_objectives",
    "C122_moead_objectives"
   ],
   "note": ""
  },
  {
   "property": "C123",
   "status": "partial",
   "theorems": [
    "C123_nearly_exact",
    "C123_exact_when_separated",
    "C123_wrong_member_removed_refuted"
   ],
   "note": "C123_wrong_member_removed_refuted: (see the statement)"
  },
  {
   "property": "C124",
   "status": "partial",
   "theorems": [
    "C124_finite_values",
    "C124_infinity_disturbs_nobody",
    "C124_nan_stops_selection_refuted",
    "C124_nan_for_ever_refuted"
   ],
   "note": "C124_nan_stops_selection_refuted: C124 (false of the code). \"A failed evaluation reported as NaN disturbs nobody\": one NaN anywhere in the population, or in an ideal point, and from then on nobody (at most one individual, if the constraints leave only one) is selected; the NaN stays in the remembered ideal point. | C124_nan_for_ever_refuted: One NaN in the first population: neither that selection nor any later one selects anybody, whatever the later populations are."
  },
  {
   "property": "C125",
   "status": "partial",
   "theorems": [
    "C125_finite_values",
    "C125_population_stays_finite",
    "C125_failed_member_is_replaced",
    "C125_failed_member_stays_refuted",
    "C125_nan_freezes_the_run_refuted"
   ],
   "note": "C125_failed_member_stays_refuted: C125 (false of the code). With a scalarising function that answers NaN for them, failed members stay for ever: as long as evaluations are finite or +infinity, no generation replaces them. | C125_nan_freezes_the_run_refuted: C125 (false of the code). \"The run recovers from a failed evaluation reported as NaN\": the offspring's NaN enters the ideal point; in the same step and for ever after no member of the population is replaced, whatever is evaluated."
  },
  {
   "property": "C126",
   "status": "partial",
   "theorems": [
    "C126_evonn_rows",
    "C126_evonn_trained_model",
    "C126_evonn_untrained",
    "C126_other_data_refuted",
    "C126_evodn2_rows",
    "C126_evodn2_records_agree",
    "C126_evodn2_trained_model_refuted",
    "C126_biogp_rows_partial",
    "C126_biogp_batch_order_refuted"
   ],
   "note": "C126_other_data_refuted: C126 (false of the code). The performance on other data than the training data cannot be had: the call fails whatever the data, for every network. | C126_evodn2_trained_model_refuted: C126 (false of the code). The performance of a trained EvoDN2 model cannot be asked for: TypeError. | C126_biogp_rows_partial: C126, BioGP. If no variable used as a bare denominator has a zero in the data, every individual of a batch is fitted to the data as they are, and its row is its own error and complexity. | C126_biogp_batch_order_refuted: (see the statement)"
  },
  {
   "property": "C127",
   "status": "partial",
   "theorems": [
    "C127_ibea_finite_values",
    "C127_pbea_finite_values",
    "C127_ibea_infinite",
    "C127_ibea_nan_partial",
    "C127_ibea_nan_refuted",
    "C127_pbea_nan_refuted",
    "C127_pbea_infinite_refuted"
   ],
   "note": "C127_ibea_nan_partial: C127. IBEA, evaluations that failed with NaN: still nobody is removed who dominates a survivor, and if a failed member survives, then whoever was removed was at least as bad as every surviving successful member in every objective ... | C127_ibea_nan_refuted: ... but a failed member may survive in place of a successful one: of a successful member and one that failed with NaN, the successful one is removed, for every kappa. | C127_pbea_nan_refuted: C127. PBEA: as soon as one member has a NaN objective value, environmental selection is blind: it keeps the last pop_size rows of the population, whatever their quality, so all parents are lost when there are pop_size offspring. | C127_pbea_infinite_refuted: C127. PBEA with evaluations that failed with +infinity (all objectives minimised): the failed members are the last to go. If n members have to go, the first n of the successfully evaluated ones go, whatever their quality (all of them if there are no more than n); a failed member is removed only when no successful one is left."
  },
  {
   "property": "C128",
   "status": "partial",
   "theorems": [
    "C128_finite_values",
    "C128_count_and_elitism",
    "C128_infinite_last",
    "C128_nan_survives_refuted",
    "C128_nan_blinds_refuted",
    "C128_infinite_blinds_refuted"
   ],
   "note": "C128_nan_survives_refuted: C128. Not so individuals that failed with NaN: they are never dominated, so as soon as any dominated individual is selected, all of them are. | C128_nan_blinds_refuted: C128. Once a NaN has been seen in some objective, in that call and in every later one (the stored ideal point keeps the NaN) the selection depends on nothing but the fronts and the random numbers: any other fitness values with the same fronts, in any state that has seen a NaN, give the same selection. Niches and distances play no role any more. | C128_infinite_blinds_refuted: C128. If np.linalg.solve fails in a call whose population contains an individual that failed with +infinity, and there are enough successful individuals, the selection among them depends on nothing but the fronts and the random numbers: every successful individual is normalised to the origin (lines 67-73 pass the worst of the whole population as the fallback nadir point)."
  },
  {
   "property": "C129",
   "status": "partial",
   "theorems": [
    "C129_finite_values",
    "C129_lattice_consistent",
    "C129_never_below_target",
    "C129_nan_hides_refuted",
    "C129_edge_predators_refuted",
    "C129_infinite_killed_first",
    "C129_cull"
   ],
   "note": "C129_nan_hides_refuted: C129. A prey that failed with NaN hides those seen before it (the neighbourhood is scanned row by row): the predator kills somebody seen after it, whoever that is compared to the others, and the failed prey itself only when it is the last one seen. | C129_edge_predators_refuted: C129. The first and the last predator, whose weights are 0 and 1, treat prey that failed with +infinity in the same way (0 * inf is NaN)."
  },
  {
   "property": "C130",
   "status": "partial",
   "theorems": [
    "C130_decomposition_generation",
    "C130_same_course",
    "C130_tournament_refuted",
    "C130_nsga3_survives",
    "C130_rvea_survives",
    "C130_moead_survives",
    "C130_indicator_survives",
    "C130_ppga_refuted",
    "C130_generation_bound",
    "C130_generation_budget_refuted"
   ],
   "note": "C130_tournament_refuted: C130. TournamentEA loses its whole population: it is deleted before the offspring are evaluated. After one evaluation that raises there is none, whatever is called later; every later iterate() that would run a generation raises, and so does end(). | C130_ppga_refuted: C130. PPGA: when the evaluation of the offspring raises, the population and the counters are those of before the generation, but the offspring that found a cell stay on the lattice: one prey more than individuals for each of them, labelled with numbers no individual has. The lattice agrees with the population again only if no offspring had been placed. | C130_generation_budget_refuted: C130. The budget of generations (n_iterations times n_gen_per_iter, here 2) is not kept: an iterate() that raises is not counted as an iteration although its generations are. Here every call makes one generation and raises; after any number n of them there have been n generations, no iteration, and the run is to be continued."
  },
  {
   "property": "C131",
   "status": "partial",
   "theorems": [
    "C131_statements",
    "C131_add_refuted",
    "C131_keep_refuted",
    "C131_delete_refuted",
    "C131_replace_refuted",
    "C131_torn_raises",
    "C131_silent_refuted"
   ],
   "note": "C131_add_refuted: C131. An interrupted add(): the table of the population is a table of members (every column of the same length, every row one individual with its values) exactly when the interrupt came before the first or after the last column was assigned. | C131_keep_refuted: C131. An interrupted keep() or delete(): likewise (a population of which everybody was deleted counts as empty as soon as it has no individuals). | C131_delete_refuted: (see the statement) | C131_replace_refuted: C131. An interrupted replace() (MOEA/D): the columns still have the same lengths, but the replaced rows have the new individual with (some of) the values of the old one. | C131_silent_refuted: C131. The damage need not be noticed: the next iterate() raises, the one after it succeeds, and from then on the population has individuals with the objectives of others; so has the result of end()."
  },
  {
   "property": "C132",
   "status": "partial",
   "theorems": [
    "C132_moead_numpy_seed",
    "C132_indicator_numpy_seed",
    "C132_reseeded_schedules",
    "C132_mate_refuted",
    "C132_decomposition_refuted",
    "C132_extra_request_refuted",
    "C132_other_algorithm_refuted",
    "C132_moead_step",
    "C132_indicator_step",
    "C132_tournaments_happen"
   ],
   "note": "C132_mate_refuted: C132 (false of the code). Seeding numpy does not determine the offspring of Population.mate() ... | C132_decomposition_refuted: ... nor which solutions a generation of RVEA or NSGA-III (whatever the selection operator) evaluates. | C132_extra_request_refuted: C132 (false of the code). \"Asking for the requests does not influence the run\": calling requests() once more before iterate() changes what an interactive RVEA or NSGA-III evaluates next. | C132_other_algorithm_refuted: C132 (false of the code). \"A run started from a given seed does not depend on what else the process does\": a generation of another algorithm in between (RVEA, whose selection draws nothing) changes what this one evaluates."
  },
  {
   "property": "C133",
   "status": "partial",
   "theorems": [
    "C133_evonn_as_operator",
    "C133_evonn_mate",
    "C133_mutation_fades",
    "C133_evodn2_as_operator",
    "C133_evodn2_default_mating",
    "C133_evodn2_other_type_refuted",
    "C133_biogp_selects",
    "C133_biogp_mate",
    "C133_no_params_refuted"
   ],
   "note": "C133_evodn2_other_type_refuted: C133 (false of the code). With any other mutation type, \"self-adapting\" included, the EvoDN2 function silently returns no offspring at all, for every population and mating list. | C133_no_params_refuted: C133 (false of the code). The documented \"params: if None, use defaults\" raises in all three."
  },
  {
   "property": "C134",
   "status": "partial",
   "theorems": [
    "C134_function_as_operator",
    "C134_not_mutated",
    "C134_standard",
    "C134_small_partial",
    "C134_mono_parental_partial",
    "C134_single_node_refuted",
    "C134_breeding"
   ],
   "note": "C134_small_partial: C134 (partial). Between one and two thirds of the probability: node values are redrawn in place; the offspring keep their shape and depth, and stay well formed if no function node with arguments is turned into a terminal (whenever the first of the two draws of such a node fails, so does the second). Missing: that condition is not enforced (C62_small_mutation_refuted). | C134_mono_parental_partial: C134 (partial). Above two thirds of the probability: two nodes below the linear node of every offspring change places (their positions differ and exist); all stay well formed. Missing: the depth (C62_mono_parental_refuted). | C134_single_node_refuted: C134 (false of the code). Mutation can fail: an offspring with a single node below its linear node (grown when max_subtrees is 1 and the first node is a terminal) makes the mono-parental mutation of the whole list raise, whatever is drawn; the offspring before it have then been mutated already."
  },
  {
   "property": "C135",
   "status": "partial",
   "theorems": [
    "C135_programs",
    "C135_data_intact",
    "C135_interrupted_counts",
    "C135_count_of_a_session",
    "C135_decomposition_stopped",
    "C135_moead_stopped",
    "C135_moead_size_refuted",
    "C135_moead_size_partial",
    "C135_tournament_refuted",
    "C135_archive_refuted"
   ],
   "note": "C135_moead_size_refuted: C135. Refuted: the size of a MOEA/D population. A stop in the four places where the offspring has been appended and not yet removed leaves one row too many, and no later iterate() removes it. | C135_moead_size_partial: C135. ... whereas a stop anywhere else in a generation leaves the size right, for good. | C135_tournament_refuted: C135. Refuted: going on. TournamentEA deletes the whole population before it adds the offspring: a stop between the two loses it, and whatever is called afterwards it stays lost (with no population there is nothing to select from, and every generation raises). | C135_archive_refuted: (see the statement)"
  },
  {
   "property": "C136",
   "status": "proved",
   "theorems": [
    "C136_operators_lift",
    "C136_bounds",
    "C136_bounds_offspring",
    "C136_moead_repair",
    "C136_binary",
    "C136_networks"
   ],
   "note": ""
  },
  {
   "property": "C137",
   "status": "partial",
   "theorems": [
    "C137_unit_length_partial",
    "C137_adapt_partial",
    "C137_tiny_refuted",
    "C137_huge_refuted",
    "C137_distinct_exact",
    "C137_nonnegative_angles",
    "C137_distinct_refuted",
    "C137_cosine_error",
    "C137_separated_angles",
    "C137_adapt_by_ranges_partial"
   ],
   "note": "C137_unit_length_partial: C137 (partial). Rows of at most 2^20 entries, moderate and not all zero, are divided by one positive number up to one rounding each - zeros stay zeros, signs stay, the direction is kept - and get length 1 up to (n + 4) * 2^-51, in whatever order the squares are added. Missing: entries outside that range. | C137_adapt_partial: C137 (partial). Adaptation: every adapted vector has length 1 and is the initial one stretched by the ranges, both up to rounding. Missing: ranges and entries that are extremely small or large. | C137_tiny_refuted: C137 (false of the code). Squares of tiny entries underflow: a \"unit\" vector of length 67/64, and one of length 2^-486 (its norm is 0 and is replaced by eps). | C137_huge_refuted: C137 (false of the code). Squares of huge entries overflow: the vector becomes zero. | C137_distinct_refuted: C137 (false of the code). Distinct reference vectors get the neighbouring angle 0 when an adaptation brings them close (about 10^-9): APD then divides by zero. In exact arithmetic the angle is positive. | C137_adapt_by_ranges_partial: C137 (partial). Every adapted vector has length 1 and is the initial one stretched by the ranges of the fitness - the exact ones -, both up to rounding. Missing: extremely small or large ranges and entries."
  },
  {
   "property": "C138",
   "status": "partial",
   "theorems": [
    "C138_clamps",
    "C138_agrees",
    "C138_agrees_sbx",
    "C138_agrees_design",
    "C138_initial_refuted",
    "C138_crossover_lost",
    "C138_nan_stays",
    "C138_mutation_refuted",
    "C138_equal_bounds_refuted",
    "C138_run_refuted",
    "C138_mate_inside"
   ],
   "note": "C138_initial_refuted: C138 (false of the code). RandomDesign and LHSDesign draw no finite value for a variable with an infinite bound: always NaN (no lower bound), or NaN or infinity. | C138_mutation_refuted: C138 (false of the code). Even a finite gene does not survive mutation if a bound is infinite: mutated, it becomes NaN or infinite (0 <= miu, DisM > -1, the gene within its bounds). | C138_equal_bounds_refuted: C138 (false of the code). A variable fixed by equal bounds (which desdeo_problem's variables refuse, the operators do not): creation and crossover keep its one value, and so does a mutation whose draw exceeds the probability; a gene that is mutated becomes NaN (0 / 0), which neither clamp nor repair removes. | C138_run_refuted: C138 (false of the code). A run on a problem of which some variable has an infinite bound, with a designed initial population and the default operators (any draws): no row ever evaluated, held or reported has a finite value for that variable, for all algorithms and sequences of calls."
  },
  {
   "property": "C139",
   "status": "proved",
   "theorems": [
    "C139_initial_vectors",
    "C139_planar_vectors"
   ],
   "note": ""
  },
  {
   "property": "C140",
   "status": "proved",
   "theorems": [
    "C140_nearest_up_to_rounding",
    "C140_contains_itself",
    "C140_initial_neighbourhoods"
   ],
   "note": ""
  },
  {
   "property": "C141",
   "status": "partial",
   "theorems": [
    "C141_cosine",
    "C141_assignment",
    "C141_distance",
    "C141_choice",
    "C141_best_up_to_rounding",
    "C141_no_penalty",
    "C141_ideal_point",
    "C141_distance_nonneg",
    "C141_tiny_refuted",
    "C141_selection",
    "C141_angle",
    "C141_unambiguous",
    "C141_initial",
    "C141_initial_distance",
    "C141_adapted"
   ],
   "note": "C141_tiny_refuted: C141 (false of the code). Two solutions with (translated) objectives below 2^-538 have the computed distance 0 whatever the penalty: the one that is worse in every respect is kept if it comes first."
  },
  {
   "property": "C142",
   "status": "proved",
   "theorems": [
    "C142_initial",
    "C142_adapted",
    "C142_distance",
    "C142_association",
    "C142_unambiguous",
    "C142_normalised",
    "C142_ideal_point"
   ],
   "note": ""
  },
  {
   "property": "C143",
   "status": "partial",
   "theorems": [
    "C143_shift",
    "C143_identical_refuted",
    "C143_exact_distinct",
    "C143_collapse_refuted",
    "C143_distinct",
    "C143_reference_point",
    "C143_near_ideal_refuted",
    "C143_axis",
    "C143_axes_added",
    "C143_reference_vectors",
    "C143_preferred_vectors"
   ],
   "note": "C143_identical_refuted: C143 (false of the code). The preferred solution's objectives are used as they are: when all are at least 2^56, all reference vectors become one and the same (the axis vectors excepted)... | C143_collapse_refuted: C143 (false of the code). With such a preferred solution RVEA's next selection keeps at most one solution besides one per axis vector, however many solutions and reference vectors there are. | C143_near_ideal_refuted: C143 (false of the code). A reference point is divided by its computed distance from the ideal point also when that is 0: at the ideal point and within 2^-538 of it in every objective, there is no direction."
  },
  {
   "property": "C144",
   "status": "partial",
   "theorems": [
    "C144_distance",
    "C144_far_kept",
    "C144_near_dropped",
    "C144_exact",
    "C144_origin_refuted"
   ],
   "note": "C144_origin_refuted: C144 (false of the code). One non-preferred solution with all objectives 0 becomes NaN and drops every reference vector, however many there are and wherever they are."
  },
  {
   "property": "C145",
   "status": "partial",
   "theorems": [
    "C145_samples",
    "C145_samples_refuted",
    "C145_unit_length",
    "C145_origin_refuted"
   ],
   "note": "C145_samples_refuted: C145 (false of the code). Not exactly: a sample's unit coordinate can be 1 (pyDOE.lhs rounds), and the sample then lies above its range. | C145_origin_refuted: C145 (false of the code). Ranges that only contain the origin turn every reference vector into the zero vector, which has no direction."
  }
 ]
}