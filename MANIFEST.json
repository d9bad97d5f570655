{
 "claims": [
  {
   "property": "C01",
   "status": "proved",
   "theorems": [
    "C01_tree_refines_array",
    "C01_sum_qualifies",
    "C01_min_qualifies",
    "C01_sum_reduce_meaning",
    "C01_min_reduce_meaning"
   ],
   "note": ""
  },
  {
   "property": "C02",
   "status": "proved",
   "theorems": [
    "C02_prefix_search",
    "C02_prefix_search_rejects"
   ],
   "note": ""
  },
  {
   "property": "C03",
   "status": "proved",
   "theorems": [
    "C03_sum_range",
    "C03_min_range",
    "C03_empty_range_refuted",
    "C03_capacity_one_search_refuted",
    "C01_tree_refines_array"
   ],
   "note": "The user expectation is false of the code: empty ranges recurse forever and a capacity-1 tree cannot be searched; both are theorems. Non-empty ranges always return: C01_tree_refines_array."
  },
  {
   "property": "C04",
   "status": "proved",
   "theorems": [
    "C04_fifo",
    "C04_batch_rows",
    "C04_sample_rows"
   ],
   "note": ""
  },
  {
   "property": "C05",
   "status": "proved",
   "theorems": [
    "C05_priorities",
    "C05_long_batch_refuted"
   ],
   "note": "Histories follow the documented contract and extend batches are shorter than the buffer; for batch lengths that are multiples of the size the claim is false and that is a theorem."
  },
  {
   "property": "C06",
   "status": "proved",
   "theorems": [
    "C06_proportional",
    "C06_reachable_all_but_last",
    "C06_last_slot_refuted",
    "C06_single_refuted"
   ],
   "note": "Reachability of the last stored slot and of a single stored transition is false of the code; exact reachable set and both refutations are theorems."
  },
  {
   "property": "C07",
   "status": "proved",
   "theorems": [
    "C07_weights"
   ],
   "note": "x ** (-beta) is an arbitrary positive antitone function on positives."
  },
  {
   "property": "C08",
   "status": "proved",
   "theorems": [
    "C08_no_duplicates_bounded",
    "C08_calls_total",
    "C08_nothing_lost_early",
    "C08_remove_duplicates",
    "C08_batch_rows",
    "C08_batch_rows_no_method"
   ],
   "note": ""
  },
  {
   "property": "C09",
   "status": "proved",
   "theorems": [
    "C09_greedy_top",
    "C09_fifo_without_sorting",
    "C09_evicts_oldest_refuted"
   ],
   "note": "First half proved for every memory; the second half is false of the code (sampling sorts the ring in place) and the counterexample is a theorem.  FIFO eviction holds when no greedy/priority sampling occurs."
  },
  {
   "property": "C10",
   "status": "proved",
   "theorems": [
    "C10_priorities"
   ],
   "note": ""
  },
  {
   "property": "C11",
   "status": "proved",
   "theorems": [
    "C11_linear_schedule"
   ],
   "note": ""
  },
  {
   "property": "C12",
   "status": "proved",
   "theorems": [
    "C12_piecewise",
    "C12_last_endpoint_refuted"
   ],
   "note": "The value at the last end point is not the end point value: refuted with a witness."
  },
  {
   "property": "C13",
   "status": "proved",
   "theorems": [
    "C13_encoded_space",
    "C13_encode_decode",
    "C13_decode_encode",
    "C13_validation",
    "C13_repeated_choice_fails"
   ],
   "note": ""
  },
  {
   "property": "C14",
   "status": "proved",
   "theorems": [
    "C14_int_conversion",
    "C14_in_range",
    "C14_total",
    "C14_forced",
    "C14_kept",
    "C14_single_value_refuted",
    "C14_vector"
   ],
   "note": "Range with a single value: C14_single_value_refuted shows the exception."
  },
  {
   "property": "C15",
   "status": "proved",
   "theorems": [
    "C15_projection",
    "C15_nan_shortens",
    "C15_nan_shift_refuted"
   ],
   "note": "One body shared by the optimizers is modelled; NaN shifting is a theorem."
  },
  {
   "property": "C16",
   "status": "proved",
   "theorems": [
    "C16_two_point",
    "C16_two_point_reach",
    "C16_one_variable_fails",
    "C16_blend"
   ],
   "note": ""
  },
  {
   "property": "C17",
   "status": "proved",
   "theorems": [
    "C17_mutation",
    "C17_mutation_total",
    "C17_offspring",
    "C17_run",
    "C17_run_total"
   ],
   "note": "With blend crossover and clip=False strategies may leave [smin,smax] (excluded by hypothesis). mutES of es.py modelled; RL-informed mode not modelled."
  },
  {
   "property": "C18",
   "status": "proved",
   "theorems": [
    "C18_best_of_offspring",
    "C18_initial_ignored_refuted"
   ],
   "note": "The expectation that x0 is covered is false of the code: C18_initial_ignored_refuted."
  },
  {
   "property": "C19",
   "status": "proved",
   "theorems": [
    "C19_donors",
    "C19_slot_greedy",
    "C19_best",
    "C19_total",
    "C19_sigmoid_refuted"
   ],
   "note": "Strategies rand1bin as coded; RL-informed mode not modelled. Sigmoid/minmax transformation: refuted with a witness."
  },
  {
   "property": "C20",
   "status": "proved",
   "theorems": [
    "C20_best",
    "C20_initial",
    "C20_total",
    "C20_history_refuted",
    "C20_mixed_refuted"
   ],
   "note": "The constriction factor and exp are arbitrary. History/returned-value mismatch and the mixed-space TypeError are theorems."
  },
  {
   "property": "C21",
   "status": "proved",
   "theorems": [
    "C21_chain",
    "C21_acceptance",
    "C21_best",
    "C21_best_custom_move",
    "C21_move",
    "C21_steps",
    "C21_total",
    "C21_short_refuted",
    "C21_equilibrium_refuted",
    "C21_equilibrium_raises_refuted"
   ],
   "note": "sa.py chain/evolute with built-in and user moves and equilibrium cooling; SAMod (PESA) not covered here. The three raised/mispaired cases are theorems."
  },
  {
   "property": "C22",
   "status": "proved",
   "theorems": [
    "C22_gwo",
    "C22_leaders",
    "C22_total"
   ],
   "note": "Alpha, beta and delta are proved to be the three best distinct values. The infinite scores of missing leaders are one constructor (inf or -inf by mode)."
  },
  {
   "property": "C23",
   "status": "proved",
   "theorems": [
    "C23_aco",
    "C23_aco_total",
    "C23_aco_probs",
    "C23_aco_single_refuted",
    "C23_aco_integers_refuted",
    "C23_xnes",
    "C23_xnes_total",
    "C23_xnes_history_refuted",
    "C23_cs",
    "C23_cs_total",
    "C23_cs_rows",
    "C23_woa",
    "C23_woa_total",
    "C23_woa_a_alone_refuted",
    "C23_ssa",
    "C23_ssa_total",
    "C23_mfo",
    "C23_mfo_total",
    "C23_jaya",
    "C23_jaya_total",
    "C23_jaya_rows",
    "C23_jaya_worst_refuted"
   ],
   "note": "One theorem per algorithm. XNES: the distribution update is abstracted, candidates before clipping are arbitrary vectors; ngen>=1."
  },
  {
   "property": "C24",
   "status": "proved",
   "theorems": [
    "C24_bat",
    "C24_bat_total",
    "C24_bat_initial_refuted",
    "C24_hclpso",
    "C24_hclpso_total",
    "C24_hclpso_initial_refuted",
    "C24_hclpso_x0_refuted",
    "C24_hho",
    "C24_hho_dives",
    "C24_hho_total",
    "C24_hho_last_dives_refuted",
    "C24_hho_sigmoid_dives_refuted",
    "C24_ts_value",
    "C24_ts",
    "C24_ts_total",
    "C24_ts_evaluated_refuted"
   ],
   "note": "One theorem per algorithm over the exact set of evaluations its answer is optimal for; the wider claims are refuted with concrete runs."
  },
  {
   "property": "C25",
   "status": "proved",
   "theorems": [
    "C25_cs_feasible_refuted",
    "C25_cs_sigmoid_refuted",
    "C23_cs",
    "C23_cs_total"
   ],
   "note": "Positive part: C23_cs (value of the nearest point, integer coordinates fine). Feasibility of the returned position refuted by a concrete run."
  },
  {
   "property": "C26",
   "status": "proved",
   "theorems": [
    "C26_pair_refuted",
    "C26_permutation",
    "C26_tenure",
    "C26_aspirated_refuted",
    "C26_perturb_feasible",
    "C26_swap_feasible",
    "C26_swap_feasible_refuted",
    "C26_swap_raises",
    "C24_ts"
   ],
   "note": "Candidates in swap mode are recomputed by the code after the choice; the model reuses them (same value)."
  },
  {
   "property": "C27",
   "status": "proved",
   "theorems": [
    "C27_isDominated",
    "C27_order",
    "C27_nan_refuted"
   ],
   "note": "Exact rationals; NaN as an extra value in the refutation only."
  },
  {
   "property": "C28",
   "status": "proved",
   "theorems": [
    "C28_sort",
    "C28_levels",
    "C28_partition"
   ],
   "note": "Members are named by their position in the population dictionary; the reads of fitness vectors are exact."
  },
  {
   "property": "C29",
   "status": "proved",
   "theorems": [
    "C29_select",
    "C29_niches"
   ],
   "note": "NSGA-III: niche and distance of each member are arbitrary functions (the geometry that computes them is not modelled)."
  },
  {
   "property": "C30",
   "status": "proved",
   "theorems": [
    "C30_points",
    "C30_total"
   ],
   "note": ""
  },
  {
   "property": "C31",
   "status": "proved",
   "theorems": [
    "C31_reported",
    "C31_best_max_refuted",
    "C31_best_min_refuted",
    "C31_paired_refuted"
   ],
   "note": "The intended meaning (best per objective) is refuted in both modes; what is returned instead is proved."
  },
  {
   "property": "C32",
   "status": "proved",
   "theorems": [
    "C32_conserved",
    "C32_migration",
    "C32_values",
    "C32_count",
    "C32_start",
    "C32_labels_refuted"
   ],
   "note": "Strategies are arbitrary oracles; \"every fitness is its member's\" assumes last_pop is honest (proved separately for the single optimizers). Lists of 64 or more members are sorted by one binary insertion sort in the model; CPython merges runs, with the same result unless NaN values are present."
  },
  {
   "property": "C33",
   "status": "proved",
   "theorems": [
    "C33_probabilities",
    "C33_weights",
    "C33_total",
    "C33_q_refuted",
    "C33_one_cycle_refuted",
    "C33_mean",
    "C33_ncr"
   ],
   "note": "The real power x**alpha is an arbitrary function that is nonnegative (positive) on nonnegative (positive) numbers."
  },
  {
   "property": "C34",
   "status": "proved",
   "theorems": [
    "C34_partition",
    "C34_slots",
    "C34_best",
    "C34_best_all",
    "C34_again_refuted",
    "C34_history",
    "C34_count",
    "C34_total"
   ],
   "note": "Drawn scale factors and crossover rates of randFCR are arbitrary. The stronger best-of-all claim is refuted for perturbing integer transformations."
  },
  {
   "property": "C35",
   "status": "proved",
   "theorems": [
    "C35_exact",
    "C35_plain",
    "C35_partition",
    "C35_variance",
    "C35_total",
    "C35_workers"
   ],
   "note": "Exact rationals. The accumulator of mpi_running_mean_std.py (sums over workers) is covered too, without its float32 casts and the floor 1e-2 of the reported deviation."
  },
  {
   "property": "C36",
   "status": "proved",
   "theorems": [
    "C36_advantage",
    "C36_horizon",
    "C36_returns",
    "C36_lambda_one",
    "C36_lambda_zero",
    "C36_layout"
   ],
   "note": "Exact rationals; the environment and policy are arbitrary (rewards, values and flags are universally quantified)."
  },
  {
   "property": "C37",
   "status": "proved",
   "theorems": [
    "C37_discount",
    "C37_boundaries",
    "C37_boundaries_empty_refuted",
    "C37_dones",
    "C37_a2c",
    "C37_a2c_ppo2"
   ],
   "note": "Includes the bootstrapped returns of the A2C runner (used by ACKTR too) and their agreement with PPO2 at lambda = 1. An empty array makes discount_with_boundaries raise (refuted part). Integer rewards, which numpy would truncate, are outside the model."
  },
  {
   "property": "C38",
   "status": "proved",
   "theorems": [
    "C38_inverse",
    "C38_inverse",
    "C38_range",
    "C38_ends",
    "C38_order"
   ],
   "note": "Per coordinate, exact rationals."
  },
  {
   "property": "C39",
   "status": "proved",
   "theorems": [
    "C39_epochs",
    "C39_passes",
    "C39_abandoned_refuted",
    "C39_zero_refuted",
    "C39_subset",
    "C39_iterbatches",
    "C39_iterbatches_full",
    "C39_iterbatches_num",
    "C39_iterbatches_num_refuted"
   ],
   "note": "Abandoned iterations, batch size 0 and num_batches without the partial batch are refuted."
  },
  {
   "property": "C40",
   "status": "proved",
   "theorems": [
    "C40_stack",
    "C40_stable",
    "C40_alias_refuted",
    "C40_space",
    "C40_space_refuted"
   ],
   "note": "Aliasing by reset and the announced space with bounds varying along the last axis are refuted."
  },
  {
   "property": "C41",
   "status": "proved",
   "theorems": [
    "C41_stored",
    "C41_count",
    "C41_final_refuted"
   ],
   "note": "Sampling itself (random.choice, np.random.choice) is an arbitrary stream of draws. The strategy final is refuted: it never uses the goal achieved at the end of the episode."
  },
  {
   "property": "C42",
   "status": "proved",
   "theorems": [
    "C42_accepts",
    "C42_box",
    "C42_box_onto",
    "C42_upper_edge",
    "C42_multidiscrete",
    "C42_multidiscrete_onto",
    "C42_single",
    "C42_single_individual",
    "C42_single_ignored_refuted",
    "C42_single_reset_refuted",
    "C42_reset_refuted"
   ],
   "note": "Exact rationals; gym samples, random.randint and the order of a Python set are arbitrary. Refuted parts: the observation returned by reset, the turn after a reset and the ignored action of dqn/acer. NaN actions and vectors of wrong length are not modelled."
  },
  {
   "property": "C43",
   "status": "proved",
   "theorems": [
    "C43_done",
    "C43_length",
    "C43_early_refuted",
    "C43_zero"
   ],
   "note": "The claim for an episode after an early reset is refuted for every such history."
  },
  {
   "property": "C44",
   "status": "proved",
   "theorems": [
    "C44_cases",
    "C44_scores",
    "C44_table",
    "C44_csv",
    "C44_headings",
    "C44_parallel",
    "C44_csv_refuted",
    "C44_table_refuted"
   ],
   "note": "The fitness is a function that may raise; joblib is modelled as an arbitrary order of completion with results put in the slot of their case, csv rows being appended whole. The tuner of neorl/tune/runners (files and subprocesses) is not modelled. Hyperparameters named id or score are refuted."
  },
  {
   "property": "C45",
   "status": "proved",
   "theorems": [
    "C45_new",
    "C45_list",
    "C45_one",
    "C45_all_fit_raises",
    "C45_all_fit_refuted",
    "C45_observation",
    "C45_reset_refuted"
   ],
   "note": "The third column of the state (weight over value), the plots and rendering are not modelled; numbers are exact rationals. Histories of the one-object methods reset only between bags; a reset in mid-bag is refuted, and environments in which everything fits raise on every step."
  },
  {
   "property": "C46",
   "status": "proved",
   "theorems": [
    "C46_list",
    "C46_one",
    "C46_order_refuted",
    "C46_reset_refuted",
    "C46_far_refuted",
    "C46_single_raises"
   ],
   "note": "int(round(numpy sqrt)) is an arbitrary function rdist of two points; columns 3 and 4 of the state, the plots and rendering are not modelled. Problems have at least two cities and distances below 10^6 over the number of cities; outside of that step raises (theorems). Mid-tour resets and reading info[x] as the tour are refuted."
  },
  {
   "property": "C47",
   "status": "proved",
   "theorems": [
    "C47_curves_unit",
    "C47_curves_nonincreasing",
    "C47_double_middle_drop_refuted",
    "C47_scheduler_calls",
    "C47_linear_overrun_refuted"
   ],
   "note": "double_middle_drop is not monotone and the linear curve overruns its horizon: both refuted with a witness; everything else proved."
  },
  {
   "property": "C48",
   "status": "proved",
   "theorems": [
    "C48_utilities"
   ],
   "note": "log is any strictly increasing function."
  },
  {
   "property": "C49",
   "status": "proved",
   "theorems": [
    "C49_loudness"
   ],
   "note": "exp is any function with values in [0,1] on the arguments used."
  },
  {
   "property": "C50",
   "status": "proved",
   "theorems": [
    "C50_memories",
    "C50_probabilities"
   ],
   "note": "exp is any strictly increasing function."
  },
  {
   "property": "C51",
   "status": "proved",
   "theorems": [
    "C51_log_levels",
    "C51_same_fronts"
   ],
   "note": "All helpers of the recursive sort are modelled; fuel is the recursion bound and is proved sufficient."
  },
  {
   "property": "C52",
   "status": "proved",
   "theorems": [
    "C52_front",
    "C52_complete",
    "C52_complete_refuted",
    "C52_total"
   ],
   "note": "As for ES, GenOffspring draws, exp and tau are arbitrary; s_cut is a ghost flag (some generation had more nondominated members than mu)."
  },
  {
   "property": "C53",
   "status": "proved",
   "theorems": [
    "C53_distance",
    "C53_least_crowded",
    "C53_best_kept"
   ],
   "note": ""
  },
  {
   "property": "C54",
   "status": "proved",
   "theorems": [
    "C54_best"
   ],
   "note": ""
  },
  {
   "property": "C55",
   "status": "proved",
   "theorems": [
    "C55_jade_donors",
    "C55_code_donors",
    "C55_code_total",
    "C55_archive",
    "C55_jrand_refuted",
    "C55_pools",
    "C55_pools_kept"
   ],
   "note": "The claim that each JADE trial inherits from its mutant is refuted."
  },
  {
   "property": "C56",
   "status": "proved",
   "theorems": [
    "C56_statistics",
    "C56_frozen",
    "C56_clipped",
    "C56_observation",
    "C56_reward",
    "C56_order",
    "C56_reward_order",
    "C56_total"
   ],
   "note": "Pickling (save/load) and the wrapped environment are not modelled; np.sqrt is an arbitrary function."
  },
  {
   "property": "C57",
   "status": "proved",
   "theorems": [
    "C57_retrace",
    "C57_batch_round_trip",
    "C57_seq_round_trip",
    "C57_strip"
   ],
   "note": ""
  },
  {
   "property": "C58",
   "status": "proved",
   "theorems": [
    "C58_logged",
    "C58_acer_refuted"
   ],
   "note": "The claim for the flags passed by ACER is refuted."
  },
  {
   "property": "C59",
   "status": "proved",
   "theorems": [
    "C59_bounds",
    "C59_constant",
    "C59_nan",
    "C59_2d_refuted"
   ],
   "note": "The two-dimensional variant is refuted."
  },
  {
   "property": "C60",
   "status": "proved",
   "theorems": [
    "C60_schedule",
    "C60_progress",
    "C60_bound",
    "C60_alone",
    "C60_short_refuted",
    "C60_mixed_refuted"
   ],
   "note": "Too few actions and calls between step_async and step_wait are refuted."
  },
  {
   "property": "C61",
   "status": "proved",
   "theorems": [
    "C61_cases",
    "C61_scores"
   ],
   "note": ""
  },
  {
   "property": "C62",
   "status": "proved",
   "theorems": [
    "C62_report",
    "C62_start",
    "C62_total",
    "C62_one_group_raises",
    "C62_two_refuted"
   ],
   "note": "Draws are arbitrary rationals; the norm in LIPS is replaced by its square, and random factors that add up to 0 (NaN in the code) give 0. The type check of x0 is C13. Two particles and an empty second group are refuted."
  },
  {
   "property": "C63",
   "status": "proved",
   "theorems": [
    "C63_memories",
    "C63_rates",
    "C63_probabilities",
    "C63_cores_refuted",
    "C63_stagnation_refuted"
   ],
   "note": "Which strategy was used and whether it succeeded are ghost fields of the model, tied to the draws and to the log of evaluations by the theorem. Several cores (the second phase is never reached) and the stagnation counter are refuted."
  },
  {
   "property": "C64",
   "status": "proved",
   "theorems": [
    "C64_history",
    "C64_best",
    "C64_total",
    "C64_zero_raises",
    "C64_groups"
   ],
   "note": "Saving the model, plots, printing and standard deviations are not modelled; the training run is an arbitrary sequence of rewards and infos."
  },
  {
   "property": "C65",
   "status": "proved",
   "theorems": [
    "C65_learn",
    "C65_modes_raises",
    "C65_calls",
    "C65_initial",
    "C65_grid_raises",
    "C65_grid_refuted",
    "C65_ackde"
   ],
   "note": "The RL run is an arbitrary log; sort_values and argsort are an arbitrary sorting (ties in any order). Grid spaces are refuted: string choices always raise with init_pop_rl, numeric ones are encoded twice."
  },
  {
   "property": "C66",
   "status": "proved",
   "theorems": [
    "C66_slots",
    "C66_best",
    "C66_total",
    "C66_few_raises",
    "C66_last_pop_refuted"
   ],
   "note": "Integer restoration by nearest_int / minmax as in C19. The last_pop table is refuted."
  },
  {
   "property": "C67",
   "status": "proved",
   "theorems": [
    "C67_mix",
    "C67_best",
    "C67_feasible",
    "C67_ppoes",
    "C67_all_replaced_refuted",
    "C67_too_many_raises",
    "C67_alpha_refuted"
   ],
   "note": "npop_rl < mu; npop_rl = mu and the hyperparameter alpha are refuted, npop_rl > mu raises (theorems)."
  },
  {
   "property": "C68",
   "status": "proved",
   "theorems": [
    "C68_total",
    "C68_report",
    "C68_best",
    "C68_alphas",
    "C68_start",
    "C68_de",
    "C68_default"
   ],
   "note": "Lists shared by reference are modelled by a heap. exp, cos and the power function of the priorities are arbitrary functions; random draws arbitrary. The clause about values assumes no sharing trouble and a fitness that depends on the numbers only."
  },
  {
   "property": "C69",
   "status": "proved",
   "theorems": [
    "C69_sharing_refuted",
    "C69_idle_wolves",
    "C69_memory_refuted",
    "C69_default_refuted",
    "C69_second_refuted",
    "C69_lost_refuted",
    "C69_no_replay_raises"
   ],
   "note": "(1), (3)-(6) are refutations by witnesses; (2) and (7) are proved for all runs."
  },
  {
   "property": "C70",
   "status": "proved",
   "theorems": [
    "C70_total",
    "C70_report",
    "C70_best",
    "C70_default",
    "C70_alphas",
    "C70_start"
   ],
   "note": "exp, the power function of the priorities and the learning rates of ES are arbitrary functions (exp positive for totality); random draws arbitrary; the redraw loop of a random SA move is bounded by fuel, assumed sufficient for totality only. Processes are modelled by their effect on the state that returns to the parent."
  },
  {
   "property": "C71",
   "status": "proved",
   "theorems": [
    "C71_globw_raises",
    "C71_one_parameter_raises",
    "C71_two_parameters",
    "C71_weights",
    "C71_default_refuted",
    "C71_memory_refuted",
    "C71_second_refuted"
   ],
   "note": "(1)-(4) are proved for all runs; (5)-(7) are refutations by witnesses. (1) is for Python numbers; with NumPy scalars the division gives inf or nan with a warning instead."
  },
  {
   "property": "C72",
   "status": "proved",
   "theorems": [
    "C72_strata",
    "C72_distinct",
    "C72_defined",
    "C72_any_order",
    "C72_hawks",
    "C72_even_refuted"
   ],
   "note": "The uniform draws are arbitrary numbers in [0,1) and the shuffles arbitrary; np.random.uniform(low, high) is low + u*(high-low). Even sampling of integers is refuted."
  },
  {
   "property": "C73",
   "status": "proved",
   "theorems": [
    "C73_report",
    "C73_total",
    "C73_default",
    "C73_warmups_raises",
    "C73_hidden_raises",
    "C73_single_raises",
    "C73_integers_refuted"
   ],
   "note": "The surrogate is an arbitrary training function of the data it is given (k-means and least squares are external), subject to the conditions under which KMeans raises; the sixteenth root in the polynomial mutation is any function with the stated bounds (root16). Integers and true fitness values are refuted."
  },
  {
   "property": "C74",
   "status": "proved",
   "theorems": [
    "C74_report",
    "C74_total",
    "C74_default_split",
    "C74_max_refuted",
    "C74_warmups_refuted",
    "C74_units"
   ],
   "note": "The network is an arbitrary training function; for C74_units its predictions lie within the range of its (scaled) targets. Maximising, the default number of warm-ups and the scale of the values are refuted. Not in the model: the default nn_params={} raises KeyError in the constructor; files; processes."
  },
  {
   "property": "C75",
   "status": "proved",
   "theorems": [
    "C75_list",
    "C75_list_total",
    "C75_total",
    "C75_checkpoint",
    "C75_checkpoint_files",
    "C75_overwrite_refuted",
    "C75_every",
    "C75_every_regular",
    "C75_every_second_refuted",
    "C75_eval",
    "C75_threshold",
    "C75_threshold_second_refuted",
    "C75_misplaced_raises",
    "C75_mask_refuted",
    "C75_signals"
   ],
   "note": "User callbacks answer arbitrarily; the mean reward of each evaluation is an arbitrary number (evaluate_policy is external). Files are modelled by the num_timesteps in their names. The claims for a second learn and for None answers are refuted."
  },
  {
   "property": "C76",
   "status": "proved",
   "theorems": [
    "C76_a2c",
    "C76_a2c_steps",
    "C76_a2c_total",
    "C76_a2c_rate",
    "C76_short",
    "C76_ppo",
    "C76_ppo_steps",
    "C76_ppo_total",
    "C76_stale_refuted"
   ],
   "note": "The vectorised environment is an arbitrary deterministic state machine, the policy an arbitrary function of the number of queries, observation and flags (so it may change with every update), shuffles arbitrary permutations. What an update computes from its rows is C58-C61 and not repeated here. Training on the current observation after an early stop of A2C is refuted."
  },
  {
   "property": "C77",
   "status": "proved",
   "theorems": [
    "C77_acer",
    "C77_acer_steps",
    "C77_replays",
    "C77_overshoot",
    "C77_rate_refuted",
    "C77_rate_again_refuted",
    "C77_recent"
   ],
   "note": "As C76; the Poisson draws and the drawn indices are arbitrary. Positive learning rates are refuted for the default schedule."
  },
  {
   "property": "C78",
   "status": "proved",
   "theorems": [
    "C78_dqn",
    "C78_times",
    "C78_data",
    "C78_epsilon",
    "C78_total",
    "C78_short_raises",
    "C78_idle",
    "C78_signals",
    "C78_epsilon_range",
    "C78_fraction"
   ],
   "note": "The environment is an arbitrary deterministic state machine, the policy an arbitrary function of the number of queries, epsilon and observation. Sampled indices are arbitrary valid ones (their distribution is C04-C06). The raise for short runs is C78_short_raises."
  },
  {
   "property": "C79",
   "status": "proved",
   "theorems": [
    "C79_serial",
    "C79_parallel",
    "C79_parallel_refuted",
    "C79_count",
    "C79_count_parallel",
    "C79_count_x0",
    "C79_count_again",
    "C79_x0_refuted",
    "C79_valid",
    "C79_total",
    "C79_discrete_raises"
   ],
   "note": "The NEAT library is an arbitrary function from the fitnesses assigned so far to the next genomes; networks are arbitrary functions with state. Loss of the best individual on several cores and single evaluations with x0 are refuted claims (C79_parallel_refuted, C79_x0_refuted). Config files, checkpoints and the pickled winner are not modelled."
  },
  {
   "property": "C80",
   "status": "proved",
   "theorems": [
    "C80_minimum",
    "C80_value",
    "C80_unique",
    "C80_inside",
    "C80_one_coordinate_refuted",
    "C80_quartic_refuted",
    "C80_quartic",
    "C80_st",
    "C80_st_refuted",
    "C80_schwefel",
    "C80_schwefel_refuted"
   ],
   "note": "Over the exact real numbers, so the theorems use the axioms of the real numbers of the standard library (listed in DESIGN.md). The entries of Quartic, the uniqueness with one coordinate, the exactness of the entry of St and a minimum of Schwefel outside the bounds are refuted. Shubert is not settled."
  },
  {
   "property": "C81",
   "status": "proved",
   "theorems": [
    "C81_minimum",
    "C81_large",
    "C81_large_refuted"
   ],
   "note": "Over the exact real numbers. F7 (a random fractal function) is not modelled. Sizes above 1000 are refuted by C81_large_refuted."
  },
  {
   "property": "C82",
   "status": "proved",
   "theorems": [
    "C82_lower_bound",
    "C82_total",
    "C82_other_dimensions_raises",
    "C82_optimum",
    "C82_schwefel_refuted",
    "C82_levy_refuted",
    "C82_composition_refuted",
    "C82_argument_kept",
    "C82_f8_rounds",
    "C82_f8_bounds_refuted"
   ],
   "note": "Over the exact real numbers; an infinite weight and its not-a-number are modelled. The optimum is refuted for the functions named; the values of the data files are arbitrary, their shapes those of transforms.py. Rounding errors and underflow of the weights far outside the bounds are not modelled."
  },
  {
   "property": "C83",
   "status": "proved",
   "theorems": [
    "C83_sphere",
    "C83_pareto_set",
    "C83_pareto_front",
    "C83_reported_front",
    "C83_front_reachable",
    "C83_second_front_refuted",
    "C83_size_raises",
    "C83_k_refuted",
    "C83_k_with_none",
    "C83_few_variables_refuted",
    "C83_few_variables_raises"
   ],
   "note": "Over the exact real numbers. Gradients (autograd), constraints and printing of the class Problem are not modelled; a matrix is evaluated row by row."
  },
  {
   "property": "C84",
   "status": "proved",
   "theorems": [
    "C84_total",
    "C84_report",
    "C84_best",
    "C84_default",
    "C84_alphas",
    "C84_start",
    "C84_speeds"
   ],
   "note": "Lists shared between the memory, the populations and the leader, which DE rounds in place, are references into a heap; hence \"evaluated\" is up to equality of numbers, and the fitness must depend on numbers only. exp and powers are arbitrary functions (exp positive)."
  },
  {
   "property": "C85",
   "status": "proved",
   "theorems": [
    "C85_globw_raises",
    "C85_one_parameter_raises",
    "C85_warmup_raises",
    "C85_weights",
    "C85_outside_refuted",
    "C85_default_refuted",
    "C85_memory_refuted",
    "C85_second_refuted"
   ],
   "note": "Limits of C84: general theorems (_raises, C85_weights) and witnesses (_refuted)."
  },
  {
   "property": "C86",
   "status": "proved",
   "theorems": [
    "C86_episodes",
    "C86_count",
    "C86_step_guard",
    "C86_reset_guard",
    "C86_transparent",
    "C86_log",
    "C86_rounding",
    "C86_times",
    "C86_no_keywords",
    "C86_missing_keyword_refuted",
    "C86_missing_info_refuted",
    "C86_reserved_refuted"
   ],
   "note": "The environment is an arbitrary deterministic state machine, the clock an arbitrary sequence. Closing, the header and the format of the csv file are not modelled. Sessions are those without missing keywords (smooth); missing ones and the keyword r are refuted by general theorems."
  },
  {
   "property": "C87",
   "status": "proved",
   "theorems": [
    "C87_load",
    "C87_load_raises",
    "C87_single",
    "C87_name",
    "C87_names_distinct",
    "C87_names_refuted"
   ],
   "note": "Files are lists of rows with the start time of their header; reading json and csv is not modelled; sort_values is a stable sorting. The distinctness of files is refuted for names that already have the ending."
  },
  {
   "property": "C88",
   "status": "proved",
   "theorems": [
    "C88_report",
    "C88_total",
    "C88_monitor",
    "C88_vec",
    "C88_vec_refuted",
    "C88_vec_raises"
   ],
   "note": "callback, render and the standard deviation are not modelled; an episode that never ends is Fuel. With a Monitor in a VecEnv that refuses early resets the claim is refuted."
  },
  {
   "property": "C89",
   "status": "proved",
   "theorems": [
    "C89_total",
    "C89_rows",
    "C89_table",
    "C89_plain",
    "C89_grid_refuted",
    "C89_first_refuted",
    "C89_one_raises"
   ],
   "note": "On top of the model of ES (C16-C18). exp and the learning rates are arbitrary (exp positive for totality); initial individuals are arbitrary points of the space. The values shown for grids and the best of all cases are refuted. The types discrete, continuous and categorical of the documentation raise in ES and are not modelled."
  },
  {
   "property": "C90",
   "status": "proved",
   "theorems": [
    "C90_rows",
    "C90_total",
    "C90_in_order",
    "C90_columns",
    "C90_order_refuted",
    "C90_default_raises",
    "C90_failure_raises"
   ],
   "note": "skopt.gp_minimize is an arbitrary function of seed, objective and number of calls that evaluates that many points of the space; a fitness is a list of argument names, default values and a body that may raise. Rows under the names of their values are refuted for other orders of the arguments."
  },
  {
   "property": "C91",
   "status": "proved",
   "theorems": [
    "C91_likelihood",
    "C91_total",
    "C91_entropy",
    "C91_kl",
    "C91_mode",
    "C91_sample_valid",
    "C91_sample_iff",
    "C91_sample_chance",
    "C91_sample_reaches",
    "C91_outside_refuted"
   ],
   "note": "Exact real numbers; one row of a batch. TensorFlow is modelled by the documented meaning of its operations; argmax takes the first largest element. The integral is that of Coquelicot, the independence of the uniform numbers is expressed by the product of the bounds. An error for numbers outside the space is refuted."
  },
  {
   "property": "C92",
   "status": "proved",
   "theorems": [
    "C92_likelihood",
    "C92_kl",
    "C92_entropy_average",
    "C92_kl_average",
    "C92_mode",
    "C92_sample",
    "C92_sample_anywhere",
    "C92_first",
    "C92_odd_raises",
    "C92_entropy_refuted"
   ],
   "note": "Exact real numbers; one row of a batch. Averages are over finite weighted sets of points, for which only the two moments matter. A lower bound of the entropy is refuted."
  },
  {
   "property": "C93",
   "status": "proved",
   "theorems": [
    "C93_likelihood",
    "C93_entropy",
    "C93_kl",
    "C93_mode",
    "C93_sample",
    "C93_size_raises",
    "C93_bits_likelihood",
    "C93_bits_entropy",
    "C93_bits_kl",
    "C93_bits_mode",
    "C93_bits_sample"
   ],
   "note": "Exact real numbers; one row of a batch; kl of two MultiDiscrete policies with the same sizes."
  },
  {
   "property": "C94",
   "status": "proved",
   "theorems": [
    "C94_greedy",
    "C94_explore",
    "C94_rate",
    "C94_history",
    "C94_new_rate_refuted",
    "C94_error",
    "C94_double",
    "C94_terminal",
    "C94_double_below",
    "C94_contraction",
    "C94_bounded",
    "C94_unique",
    "C94_outside_refuted",
    "C94_huber",
    "C94_slope",
    "C94_batch",
    "C94_copy"
   ],
   "note": "Exact real numbers; a network is an arbitrary function. Whether a call compares with the old or the new rate is left open, as in the graph. That a new rate is in force at once, and an error for actions outside the space, are refuted. Parameter noise is not modelled."
  },
  {
   "property": "C95",
   "status": "proved",
   "theorems": [
    "C95_surrogate",
    "C95_pessimistic",
    "C95_push",
    "C95_first",
    "C95_like_a2c",
    "C95_value",
    "C95_value_zero",
    "C95_exact_value_refuted",
    "C95_a2c_value",
    "C95_divergence",
    "C95_fraction",
    "C95_advantages",
    "C95_single_refuted",
    "C95_gradients",
    "C95_entropy",
    "C95_value_share"
   ],
   "note": "Exact real numbers; one loss row per sample. That exact values cost nothing, and that every minibatch teaches the policy, are refuted."
  },
  {
   "property": "C96",
   "status": "proved",
   "theorems": [
    "C96_single",
    "C96_batch",
    "C96_rowwise",
    "C96_shape_raises",
    "C96_recurrent_raises",
    "C96_dqn",
    "C96_dqn_batch",
    "C96_dqn_draw",
    "C96_dqn_chance",
    "C96_dueling",
    "C96_likelihood",
    "C96_likelihood_refuted"
   ],
   "note": "Exact real numbers; a network is an arbitrary function on the rows of a batch. That the likelihood beside a deterministic action is its own is refuted."
  },
  {
   "property": "C97",
   "status": "proved",
   "theorems": [
    "C97_discrete",
    "C97_multi",
    "C97_binary",
    "C97_box",
    "C97_box_refuted",
    "C97_logp",
    "C97_rowwise",
    "C97_sizes_raises",
    "C97_actions_refuted",
    "C97_negative_refuted",
    "C97_outside_raises",
    "C97_recurrent_raises",
    "C97_whole",
    "C97_whole_binary",
    "C97_whole_box_refuted",
    "C97_whole_multi_refuted",
    "C97_batch",
    "C97_batch_box"
   ],
   "note": "Exact real numbers; actions given as rows of the right size. The density of a Box, the refusal of negative actions and of several actions in a Box, and the full distribution of a single observation for a Box and for tuples are refuted. Where the code warns and returns None the model gives no answer."
  },
  {
   "property": "C98",
   "status": "proved",
   "theorems": [
    "C98_roundtrip",
    "C98_same_iff",
    "C98_custom",
    "C98_tuple_refuted",
    "C98_keys_refuted",
    "C98_marker_refuted",
    "C98_attribute_refuted",
    "C98_key_raises"
   ],
   "note": "Texts of numbers, str, repr, pickle and unpickle are arbitrary functions; objects are an identity with optional attributes. Tuples, colliding keys, the marker key and attribute are refuted, and a tuple as key raises."
  },
  {
   "property": "C99",
   "status": "proved",
   "theorems": [
    "C99_parameters",
    "C99_accepts",
    "C99_values",
    "C99_identity",
    "C99_list",
    "C99_list_refuted",
    "C99_extension",
    "C99_file",
    "C99_file_refuted",
    "C99_hyperparameters",
    "C99_lost_refuted",
    "C99_kwargs",
    "C99_policy_kwargs"
   ],
   "note": "Values are an arbitrary type; the file system is an arbitrary predicate on paths. The longer list, the shadowed file, the forgotten arguments of DQN and ACER and of num_timesteps are refuted."
  },
  {
   "property": "C100",
   "status": "proved",
   "theorems": [
    "C100_construct",
    "C100_accepts",
    "C100_set",
    "C100_none",
    "C100_plain_refuted",
    "C100_ppo",
    "C100_ppo_refuted",
    "C100_ppo_raises",
    "C100_steps",
    "C100_steps_refuted"
   ],
   "note": "Spaces are numbers compared for equality. That a plain environment can be set again, that PPO2 trains on the rows of all environments and that it keeps to the requested steps after set_env are refuted."
  },
  {
   "property": "C101",
   "status": "proved",
   "theorems": [
    "C101_block",
    "C101_block_cut",
    "C101_equals_refuted",
    "C101_comments",
    "C101_first_character",
    "C101_no_equals_raises",
    "C101_algorithms",
    "C101_unclosed_refuted",
    "C101_end_first_refuted",
    "C101_tune",
    "C101_dictionary",
    "C101_dictionary_comment",
    "C101_dictionary_last_refuted",
    "C101_dictionary_hangs",
    "C101_log_dir",
    "C101_log_dir_refuted"
   ],
   "note": "str.isspace and str.isalpha are arbitrary up to #, = and letters; json.loads and literal_eval are an arbitrary partial function; the encoding of the file is not modelled. Values with =, unclosed and reversed cards, the lost last character, the endless loop and the shared directory are refuted."
  },
  {
   "property": "C102",
   "status": "proved",
   "theorems": [
    "C102_learners",
    "C102_searches",
    "C102_general",
    "C102_mode_refuted",
    "C102_cores",
    "C102_values",
    "C102_flag_refuted",
    "C102_check_freq"
   ],
   "note": "float, int and str are arbitrary partial functions; the defaults of ParamList are an arbitrary table. The rules for test and continue without a model and for train without steps, and the meaning of flag, are refuted. The checks of TUNE cards are not modelled."
  },
  {
   "property": "C103",
   "status": "proved",
   "theorems": [
    "C103_noop",
    "C103_fire",
    "C103_fire_refuted",
    "C103_life_step",
    "C103_life_reset",
    "C103_life_legal",
    "C103_life_refuted",
    "C103_skip",
    "C103_skip_max",
    "C103_skip_stale_refuted",
    "C103_skip_half_refuted",
    "C103_skip_one_refuted",
    "C103_skip_zero_raises",
    "C103_clip",
    "C103_sign",
    "C103_stack",
    "C103_warp_refuted",
    "C103_lazy"
   ],
   "note": "infos are not modelled; the numbers drawn are an arbitrary function of the state. The observation of FireResetEnv after an end, the no-op that ends a game, the frames of MaxAndSkipEnv after an early end or with skip 1, and the shape of WarpFrame are refuted."
  },
  {
   "property": "C104",
   "status": "proved",
   "theorems": [
    "C104_sample",
    "C104_sample_all",
    "C104_small_raises",
    "C104_atleast_refuted",
    "C104_episodes",
    "C104_cut",
    "C104_cut_refuted",
    "C104_means",
    "C104_bytes_refuted"
   ],
   "note": "Rows are an arbitrary type; rewards are exact. That has_atleast counts frames, that statistics of several environments do not depend on the cut, and that observations are stored as they are, are refuted."
  },
  {
   "property": "C105",
   "status": "proved",
   "theorems": [
    "C105_solves",
    "C105_best",
    "C105_monotone",
    "C105_zero_refuted",
    "C105_tolerance_refuted",
    "C105_no_iteration_raises"
   ],
   "note": "Exact real numbers; the operator is a function on lists. Division by 0 gives not-a-number, as numpy does. That b = 0 is solved, and that a tolerance of 0 is safe, are refuted."
  },
  {
   "property": "C106",
   "status": "proved",
   "theorems": [
    "C106_segments",
    "C106_stopped",
    "C106_last_row_refuted",
    "C106_first_action_refuted",
    "C106_raises"
   ],
   "note": "Rewards and values are exact rationals. A segment is read before the generator is resumed (its arrays are reused). That every row has its reward, and that the actions of a segment are of the updated policy, are refuted."
  },
  {
   "property": "C107",
   "status": "proved",
   "theorems": [
    "C107_last",
    "C107_mean",
    "C107_mixed",
    "C107_profile",
    "C107_others",
    "C107_dumps",
    "C107_disabled",
    "C107_none_raises",
    "C107_failed_dump_refuted",
    "C107_scope",
    "C107_scope_files",
    "C107_configure_refuted",
    "C107_reset"
   ],
   "note": "Numbers are exact; arithmetic on arrays of two different shapes raises in the model. That a failed dump writes nothing and that configure closes the logger it replaces are refuted. writeseq, read_csv, read_json and read_tb are not modelled."
  },
  {
   "property": "C108",
   "status": "proved",
   "theorems": [
    "C108_csv",
    "C108_columns",
    "C108_empty_refuted",
    "C108_commas_refuted",
    "C108_formats_refuted",
    "C108_human",
    "C108_human_refuted",
    "C108_cut",
    "C108_json",
    "C108_events"
   ],
   "note": "str, %-8.3g and the order of a set are arbitrary functions; files are lists of characters. Empty first dumps, commas, the order of the formats and long keys are refuted."
  },
  {
   "property": "C109",
   "status": "proved",
   "theorems": [
    "C109_card",
    "C109_no_card_raises",
    "C109_comment_refuted",
    "C109_fill",
    "C109_nested_refuted",
    "C109_grid",
    "C109_order",
    "C109_unused_raises",
    "C109_log",
    "C109_row",
    "C109_best"
   ],
   "note": "int, float, str and the runs of the cases are arbitrary functions; each append to tune.csv is one step; external files are not modelled. Comments that mention END TUNE and nested braces are refuted."
  },
  {
   "property": "C110",
   "status": "proved",
   "theorems": [
    "C110_random",
    "C110_no_word_raises",
    "C110_evolution",
    "C110_parents",
    "C110_crossover",
    "C110_one_parameter_raises",
    "C110_constant_raises",
    "C110_failed_raises",
    "C110_summary_refuted",
    "C110_failed_refuted",
    "C110_bayes",
    "C110_bayes_count",
    "C110_bayes_one_parameter_raises"
   ],
   "note": "The strategies of ESTUNE only scale steps and chances, both of which are free. Parameters with the words of two distributions raise in the model. skopt and failed cases of bayestune are not modelled. The printed mean and the number of failed cases are refuted. GATUNE (gatune.py), which the program does not use, is not modelled."
  },
  {
   "property": "C111",
   "status": "proved",
   "theorems": [
    "C111_chain",
    "C111_best",
    "C111_count",
    "C111_reports",
    "C111_rates",
    "C111_cools",
    "C111_fast",
    "C111_slow",
    "C111_total",
    "C111_last_refuted",
    "C111_below_refuted",
    "C111_first_refuted",
    "C111_start_raises",
    "C111_unbounded_raises"
   ],
   "note": "Exact real arithmetic; reports are not rounded. The extra move, its temperature, a best point that is never reported and Boltzmann cooling above Tmax are refuted."
  },
  {
   "property": "C112",
   "status": "proved",
   "theorems": [
    "C112_in_box",
    "C112_single",
    "C112_dual",
    "C112_full",
    "C112_full_refuted",
    "C112_rows",
    "C112_row_point",
    "C112_quad_refuted",
    "C112_quad_raises",
    "C112_small_raises",
    "C112_constant_refuted"
   ],
   "note": "Coordinates and rows are integers. quadswap, fullswap with one range and ranges of one number are refuted."
  },
  {
   "property": "C113",
   "status": "proved",
   "theorems": [
    "C113_feasible",
    "C113_strategies",
    "C113_strategies_refuted",
    "C113_counts",
    "C113_lambda",
    "C113_share",
    "C113_rewards",
    "C113_survivors",
    "C113_children",
    "C113_report",
    "C113_best_refuted",
    "C113_total",
    "C113_share_raises",
    "C113_rows_raises",
    "C113_pair_raises"
   ],
   "note": "Exact rational arithmetic; the exponential is an arbitrary positive function. Types other than int and float raise and are left out. Bounds on all strategies and a best reward that never falls are refuted."
  },
  {
   "property": "C114",
   "status": "proved",
   "theorems": [
    "C114_kept",
    "C114_new",
    "C114_tree",
    "C114_lost_refuted",
    "C114_checks",
    "C114_completes",
    "C114_directory_raises",
    "C114_second_refuted",
    "C114_columns",
    "C114_columns_refuted",
    "C114_names",
    "C114_shared_refuted",
    "C114_dotted_refuted"
   ],
   "note": "Links, permissions, other processes and shell characters in names are not modelled. That logs are never lost, that a second run always works, that columns always match and that input files have their own directories is refuted."
  },
  {
   "property": "C115",
   "status": "proved",
   "theorems": [
    "C115_transparent",
    "C115_clean",
    "C115_once",
    "C115_always",
    "C115_raises",
    "C115_message",
    "C115_stale_refuted",
    "C115_check",
    "C115_check_warns",
    "C115_terminal_refuted",
    "C115_late_refuted",
    "C115_box",
    "C115_symmetric_refuted"
   ],
   "note": "The checks of check_env on types and shapes are one test that an observation is inside its space; rendering is left out. A fresh message after caught exceptions, notice of terminal observations, no step after an end and symmetry of the Box are refuted."
  },
  {
   "property": "C116",
   "status": "proved",
   "theorems": [
    "C116_flip",
    "C116_outside_raises",
    "C116_continuous",
    "C116_step",
    "C116_reward",
    "C116_episode",
    "C116_least",
    "C116_solvable",
    "C116_solvable_refuted",
    "C116_one_shot",
    "C116_numbers",
    "C116_space_refuted",
    "C116_copy",
    "C116_best",
    "C116_box"
   ],
   "note": "Bits are booleans; the unused reset before an episode is the argument. That one bit can be solved and that the space of numbers has the goal is refuted."
  },
  {
   "property": "C117",
   "status": "proved",
   "theorems": [
    "C117_status_refuted",
    "C117_rollouts",
    "C117_trained_refuted",
    "C117_acer",
    "C117_past_refuted",
    "C117_dqn_raises",
    "C117_dqn",
    "C117_arguments",
    "C117_ignored_refuted",
    "C117_best",
    "C117_checks",
    "C117_mean",
    "C117_mean_zero",
    "C117_times",
    "C117_frequency",
    "C117_every",
    "C117_zero_refuted"
   ],
   "note": "A model is known by its training rounds; rewards are rationals. The number of steps, cores and rounds are given beside the card. Exit status 0, training on everything, stopping at time_steps, the use of every name and DQN runs are refuted."
  },
  {
   "property": "C118",
   "status": "proved",
   "theorems": [
    "C118_started",
    "C118_off_refuted",
    "C118_refused",
    "C118_mode_refuted",
    "C118_test_refuted",
    "C118_no_input",
    "C118_check_refuted",
    "C118_tune_card",
    "C118_tune_values",
    "C118_tune_flag_refuted",
    "C118_tune",
    "C118_tune_alone_refuted"
   ],
   "note": "argparse itself and output to the screen are not modelled; reading of floats, defaults and failures of steps are arbitrary. The check option, flags of TUNE cards, logs kept by tests and by wrong modes, and checks of the other cards beside TUNE are refuted."
  },
  {
   "property": "C119",
   "status": "proved",
   "theorems": [
    "C119_value",
    "C119_missing",
    "C119_ambiguous",
    "C119_ends",
    "C119_hasattr_refuted",
    "C119_set",
    "C119_set_others",
    "C119_set_refuted",
    "C119_set_raises",
    "C119_unwrap",
    "C119_sync",
    "C119_sync_accepts",
    "C119_sync_refuted",
    "C119_sync_unvec",
    "C119_load_accepts",
    "C119_load",
    "C119_retry_raises",
    "C119_resave_raises",
    "C119_unpickled_raises"
   ],
   "note": "Attributes are names with values; properties and methods of the classes are part of what an object has. The answers of hasattr, setting through wrappers, syncing in another order, retries after a refused shape and pickling before set_venv are refuted."
  },
  {
   "property": "C120",
   "status": "proved",
   "theorems": [
    "C120_same",
    "C120_rows",
    "C120_history",
    "C120_buffers",
    "C120_shapes",
    "C120_dtype_refuted",
    "C120_shape_refuted",
    "C120_fills"
   ],
   "note": "Numbers are rationals and the conversion to a dtype is an arbitrary function; nested spaces raise in the code and are left out. Equality of the two on observations that do not fit the space is refuted."
  },
  {
   "property": "C121",
   "status": "proved",
   "theorems": [
    "C121_accepts",
    "C121_pixels",
    "C121_shown",
    "C121_grid",
    "C121_square"
   ],
   "note": "Pixels are arbitrary values; channels are part of a pixel."
  },
  {
   "property": "C122",
   "status": "proved",
   "theorems": [
    "C122_transparent",
    "C122_files",
    "C122_unique",
    "C122_names",
    "C122_replaced",
    "C122_lost_refuted",
    "C122_trigger_refuted",
    "C122_every_refuted",
    "C122_zero_refuted",
    "C122_cut_refuted"
   ],
   "note": "Rendering changes nothing and the encoder writes the frames it was given. That the trigger decides alone, that each trigger is served, that names are right, that the length is kept and that no video is lost is refuted."
  },
  {
   "property": "C123",
   "status": "proved",
   "theorems": [
    "C123_statistics",
    "C123_nonnegative",
    "C123_solves",
    "C123_dropped_refuted",
    "C123_descent",
    "C123_clip",
    "C123_cold",
    "C123_order",
    "C123_both_refuted",
    "C123_race_refuted",
    "C123_activations",
    "C123_derivatives"
   ],
   "note": "Over any real closed field, with mathcomp matrices. The eigendecomposition is an argument with orthogonal eigenvectors. Convolutional layers, channel_fac, factored_damping, asynchronous statistics and full_stats_init are left out. That the statistics themselves are inverted, that each run makes one update, and that runs do not depend on the order of reads is refuted."
  },
  {
   "property": "C124",
   "status": "proved",
   "theorems": [
    "C124_integrals",
    "C124_knot_refuted",
    "C124_interpolant",
    "C124_angles",
    "C124_eval",
    "C124_drums",
    "C124_turns",
    "C124_derivative",
    "C124_gradient",
    "C124_far_refuted",
    "C124_nominal_raises"
   ],
   "note": "Real numbers; the tables and coefficients of the data files are arguments, and how get_jminus builds tables from files is left out. That integrals from a knot within one cell are right, that evalg takes the angles eval takes, and that nominal angles can be given is refuted."
  },
  {
   "property": "C125",
   "status": "proved",
   "theorems": [
    "C125_moments",
    "C125_mean",
    "C125_split",
    "C125_empty",
    "C125_integers",
    "C125_bytes_refuted",
    "C125_rows_raises",
    "C125_axis",
    "C125_last_axis_refuted",
    "C125_running",
    "C125_running_exact",
    "C125_floor_refuted",
    "C125_bias",
    "C125_order"
   ],
   "note": "Exact reals; columns stand for all axes but the reduced one. mpi_running_mean_std.py imports a module name that does not exist: what is modelled is what the class does once that is repaired. That integers and axis -1 are handled and that std is the deviation is refuted."
  },
  {
   "property": "C126",
   "status": "proved",
   "theorems": [
    "C126_together",
    "C126_paper",
    "C126_order",
    "C126_constant",
    "C126_check",
    "C126_unnoticed_refuted",
    "C126_moments",
    "C126_sync"
   ],
   "note": "Exact reals; processes take part in the same calls. mpi_adam.py imports a module name that does not exist: what is modelled is what the class does once that is repaired. That processes which differ are noticed at once is refuted."
  },
  {
   "property": "C127",
   "status": "proved",
   "theorems": [
    "C127_walk",
    "C127_bounded",
    "C127_unstable_refuted",
    "C127_float_raises",
    "C127_returned_refuted",
    "C127_initial_refuted",
    "C127_adapt",
    "C127_settles",
    "C127_coefficient_refuted"
   ],
   "note": "Exact reals; normal draws are arbitrary. NormalActionNoise is one call of numpy and left out. That the mean may be a float, that returned arrays and initial_noise are private, and that all accepted parameters revert to the mean or settle is refuted."
  },
  {
   "property": "C128",
   "status": "proved",
   "theorems": [
    "C128_made",
    "C128_distinct",
    "C128_order",
    "C128_again_refuted",
    "C128_kwargs_refuted",
    "C128_none_raises",
    "C128_directory_raises",
    "C128_atari",
    "C128_atari_seeds",
    "C128_processes_refuted",
    "C128_mujoco_raises"
   ],
   "note": "Parents of directories and the constructors of environments are left out. That earlier logs are kept, that env_kwargs are used with an id, and that processes of MPI have their own environments is refuted."
  },
  {
   "property": "C129",
   "status": "proved",
   "theorems": [
    "C129_policy",
    "C129_counts",
    "C129_episode",
    "C129_own",
    "C129_training",
    "C129_bounds",
    "C129_norm",
    "C129_norm_constant",
    "C129_accepts",
    "C129_initial",
    "C129_mask_refuted"
   ],
   "note": "Exact reals. The layers before the LSTM are any function of one observation, those after it are left out: both work row by row. That a new episode is independent without the flag is refuted."
  },
  {
   "property": "C130",
   "status": "proved",
   "theorems": [
    "C130_rows",
    "C130_accepts",
    "C130_discrete",
    "C130_outside_refuted",
    "C130_multi",
    "C130_binary",
    "C130_unscaled",
    "C130_unscaled_int",
    "C130_mlp",
    "C130_scaled",
    "C130_place",
    "C130_infinite",
    "C130_flat",
    "C130_mixed_refuted",
    "C130_integer",
    "C130_wrap_refuted",
    "C130_injective"
   ],
   "note": "Exact rationals: the cast to float32 is not modelled, rows of arrays are flattened. That every observation of a space is scaled to [0,1] and that values outside of a space are refused is refuted."
  },
  {
   "property": "C131",
   "status": "proved",
   "theorems": [
    "C131_mlp",
    "C131_mlp_error",
    "C131_shared",
    "C131_scopes",
    "C131_rest_refuted",
    "C131_none_refuted",
    "C131_arch",
    "C131_layers",
    "C131_cnn_refuted",
    "C131_keywords",
    "C131_lstm",
    "C131_lstm_errors",
    "C131_lstm_layers",
    "C131_lstm_cnn"
   ],
   "note": "Networks are terms of layers; weights, activations and heads are left out, and sizes are natural numbers. That net_arch is checked to its end, that None is refused and that net_arch and keywords are used with CNN features is refuted."
  },
  {
   "property": "C132",
   "status": "proved",
   "theorems": [
    "C132_registered",
    "C132_kept",
    "C132_refused",
    "C132_history"
   ],
   "note": "Class hierarchies are arbitrary relations."
  },
  {
   "property": "C133",
   "status": "proved",
   "theorems": [
    "C133_valid",
    "C133_filters",
    "C133_same",
    "C133_centred",
    "C133_bias_refuted",
    "C133_accepts",
    "C133_value",
    "C133_window",
    "C133_shift",
    "C133_border_refuted"
   ],
   "note": "Exact reals, one image: batches are done image by image. tf.nn.conv2d is modelled from its documentation. That all pixels have an effect and that a bias of one dimension is added per filter in every format is refuted."
  },
  {
   "property": "C134",
   "status": "proved",
   "theorems": [
    "C134_shapes",
    "C134_entries",
    "C134_columns",
    "C134_rows",
    "C134_lengths",
    "C134_distances"
   ],
   "note": "Numbers of any real closed field; numpy.linalg.svd is any function whose first result has orthonormal columns and whose last has orthonormal rows."
  },
  {
   "property": "C135",
   "status": "proved",
   "theorems": [
    "C135_item",
    "C135_float",
    "C135_columns",
    "C135_least",
    "C135_header",
    "C135_align_refuted",
    "C135_color",
    "C135_distinct",
    "C135_separators",
    "C135_other",
    "C135_codes"
   ],
   "note": "The formats %7.5f and %7.2e are any functions from numbers to texts. That rows always align is refuted."
  },
  {
   "property": "C136",
   "status": "proved",
   "theorems": [
    "C136_alpine1",
    "C136_alpine1_unique_refuted",
    "C136_alpine1_order",
    "C136_alpine2",
    "C136_alpine2_bound",
    "C136_alpine2_parts",
    "C136_alpine2_optimum_refuted",
    "C136_ridge",
    "C136_ridge_least",
    "C136_ridge_scale",
    "C136_ridge_minimum_refuted"
   ],
   "note": "Exact reals. That the origin is the only minimum of alpinen1 and that alpinen2 and ridge have minima without bounds is refuted."
  },
  {
   "property": "C137",
   "status": "proved",
   "theorems": [
    "C137_same",
    "C137_cases",
    "C137_twist",
    "C137_outside",
    "C137_upper",
    "C137_dips",
    "C137_minimum_refuted",
    "C137_seed_refuted",
    "C137_stuck_refuted"
   ],
   "note": "Exact reals; the generator is any type with any functions for seed, choice and uniform; an optimizer is any function from its draws so far to points. That evaluating leaves the random numbers of the optimizer alone is refuted."
  },
  {
   "property": "C138",
   "status": "proved",
   "theorems": [
    "C138_sum",
    "C138_shares",
    "C138_number_refuted",
    "C138_scale",
    "C138_angles",
    "C138_objective"
   ],
   "note": "Exact reals; the network is any function. That shares are always numbers is refuted."
  },
  {
   "property": "C139",
   "status": "proved",
   "theorems": [
    "C139_seeded",
    "C139_every",
    "C139_again",
    "C139_first",
    "C139_built_refuted",
    "C139_run_refuted",
    "C139_twice_refuted",
    "C139_none"
   ],
   "note": "Generators, algorithms and memories of objects are arbitrary types and functions; one process. SA, the PESA family, AEO, EDEV, PPOES, ACKDE and NEAT are left out. That a seed makes runs reproducible for all optimizers is refuted."
  }
 ]
}