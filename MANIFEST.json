{
 "claims": [
  {
   "property": "C01",
   "status": "proved",
   "theorems": [
    "C01_is_feasible"
   ],
   "note": ""
  },
  {
   "property": "C02",
   "status": "proved",
   "theorems": [
    "C02_check_feasibility"
   ],
   "note": ""
  },
  {
   "property": "C03",
   "status": "proved",
   "theorems": [
    "C03_tolerance_binary",
    "C03_tolerance_continuous_refuted"
   ],
   "note": "positive part for binary variables; the continuous analogue is refuted with a witness, as the property says"
  },
  {
   "property": "C04",
   "status": "proved",
   "theorems": [
    "C04_packing_monotone"
   ],
   "note": ""
  },
  {
   "property": "C05",
   "status": "proved",
   "theorems": [
    "C05_generator_round_trip",
    "C05_generated_nonneg_uniform"
   ],
   "note": ""
  },
  {
   "property": "C06",
   "status": "proved",
   "theorems": [
    "C06_rounding",
    "C06_rounding_constraint"
   ],
   "note": ""
  },
  {
   "property": "C07",
   "status": "proved",
   "theorems": [
    "C07_partition_rows"
   ],
   "note": ""
  },
  {
   "property": "C08",
   "status": "proved",
   "theorems": [
    "C08_probabilities"
   ],
   "note": ""
  },
  {
   "property": "C09",
   "status": "proved",
   "theorems": [
    "C09_relaxation_any_proba",
    "C09_relaxation",
    "C09_upper_bound"
   ],
   "note": ""
  },
  {
   "property": "C10",
   "status": "proved",
   "theorems": [
    "C10_refinement_tightens",
    "C10_finest_exact"
   ],
   "note": ""
  },
  {
   "property": "C11",
   "status": "proved",
   "theorems": [
    "C11_initial_partition",
    "C11_too_many_subsets"
   ],
   "note": ""
  },
  {
   "property": "C12",
   "status": "proved",
   "theorems": [
    "C12_first_iteration",
    "C12_cost_start"
   ],
   "note": ""
  },
  {
   "property": "C13",
   "status": "proved",
   "theorems": [
    "C13_quantile_valid_any_proba",
    "C13_quantile_valid",
    "C13_quantile_tight",
    "C13_quantile_none",
    "C13_quantile_no_error"
   ],
   "note": ""
  },
  {
   "property": "C14",
   "status": "proved",
   "theorems": [
    "C14_first_iteration",
    "C14_first_iteration_returns"
   ],
   "note": ""
  },
  {
   "property": "C15",
   "status": "proved",
   "theorems": [
    "C15_random_refinement",
    "C15_after_check"
   ],
   "note": ""
  },
  {
   "property": "C16",
   "status": "proved",
   "theorems": [
    "C16_main_loop",
    "C16_merge_keeps_cut",
    "C16_refinement_cuts"
   ],
   "note": ""
  },
  {
   "property": "C17",
   "status": "proved",
   "theorems": [
    "C17_diverges",
    "C17_diverges_on_feasible_points",
    "C17_terminates_in_mu_passes"
   ],
   "note": ""
  },
  {
   "property": "C18",
   "status": "proved",
   "theorems": [
    "C18_cost_refinement",
    "C18_packing_costs",
    "C18_exceptions",
    "C18_memory"
   ],
   "note": ""
  },
  {
   "property": "C19",
   "status": "proved",
   "theorems": [
    "C19_split",
    "C19_duality_bound",
    "C19_feasible"
   ],
   "note": ""
  },
  {
   "property": "C20",
   "status": "proved",
   "theorems": [
    "C20_largest_free",
    "C20_smallest",
    "C20_key_error",
    "C20_split_selected"
   ],
   "note": ""
  },
  {
   "property": "C21",
   "status": "proved",
   "theorems": [
    "C21_merge_all"
   ],
   "note": ""
  },
  {
   "property": "C22",
   "status": "proved",
   "theorems": [
    "C22_disjoint_pairs",
    "C22_chained_pairs_lose_scenarios"
   ],
   "note": ""
  },
  {
   "property": "C23",
   "status": "proved",
   "theorems": [
    "C23_widest_margins",
    "C23_too_few",
    "C23_margin_sign"
   ],
   "note": ""
  },
  {
   "property": "C24",
   "status": "proved",
   "theorems": [
    "C24_merge_never_fails"
   ],
   "note": ""
  },
  {
   "property": "C25",
   "status": "proved",
   "theorems": [
    "C25_aligned_at_loop_head",
    "C25_aligned_after_split_and_merge",
    "C25_partition_at_loop_head"
   ],
   "note": ""
  },
  {
   "property": "C26",
   "status": "proved",
   "theorems": [
    "C26_sorted_by_cost",
    "C26_candidates",
    "C26_wrong_order_refuted"
   ],
   "note": ""
  },
  {
   "property": "C27",
   "status": "proved",
   "theorems": [
    "C27_deleted_by_last_merge",
    "C27_main_loop_refuted",
    "C27_warm_start"
   ],
   "note": ""
  },
  {
   "property": "C28",
   "status": "proved",
   "theorems": [
    "C28_pruning_big_M",
    "C28_pruning",
    "C28_pruned_subsets"
   ],
   "note": "indicator formulation; big M formulation through C36"
  },
  {
   "property": "C29",
   "status": "proved",
   "theorems": [
    "C29_naive",
    "C29_negative_cuts"
   ],
   "note": ""
  },
  {
   "property": "C30",
   "status": "proved",
   "theorems": [
    "C30_knapsack",
    "C30_negative_weight_refuted"
   ],
   "note": ""
  },
  {
   "property": "C31",
   "status": "proved",
   "theorems": [
    "C31_continuous",
    "C31_valid",
    "C31_binary",
    "C31_negative_objective"
   ],
   "note": ""
  },
  {
   "property": "C32",
   "status": "proved",
   "theorems": [
    "C32_compiled_table"
   ],
   "note": ""
  },
  {
   "property": "C33",
   "status": "proved",
   "theorems": [
    "C33_strict_weak_order",
    "C33_negative_cycle"
   ],
   "note": ""
  },
  {
   "property": "C34",
   "status": "proved",
   "theorems": [
    "C34_agreement",
    "C34_python_exact",
    "C34_dominates",
    "C34_single_constraint"
   ],
   "note": ""
  },
  {
   "property": "C35",
   "status": "proved",
   "theorems": [
    "C35_scenarios",
    "C35_subsets",
    "C35_quantile"
   ],
   "note": ""
  },
  {
   "property": "C36",
   "status": "proved",
   "theorems": [
    "C36_equivalence",
    "C36_builds"
   ],
   "note": ""
  },
  {
   "property": "C37",
   "status": "proved",
   "theorems": [
    "C37_selection",
    "C37_selection_exists",
    "C37_violations",
    "C37_feasible",
    "C37_feasible_refuted"
   ],
   "note": "the unconditional feasibility claim is refuted with a witness, as the property says"
  },
  {
   "property": "C38",
   "status": "proved",
   "theorems": [
    "C38_reused_model"
   ],
   "note": ""
  },
  {
   "property": "C39",
   "status": "proved",
   "theorems": [
    "C39_incumbent"
   ],
   "note": ""
  },
  {
   "property": "C40",
   "status": "proved",
   "theorems": [
    "C40_bracket",
    "C40_run",
    "C40_incumbent",
    "C40_incumbent_interrupted_refuted"
   ],
   "note": ""
  },
  {
   "property": "C41",
   "status": "proved",
   "theorems": [
    "C41_iteration",
    "C41_loop",
    "C41_solve",
    "C41_final_assignment_refuted"
   ],
   "note": ""
  },
  {
   "property": "C42",
   "status": "proved",
   "theorems": [
    "C42_feasible_exit_is_optimal",
    "C42_value_within_gap",
    "C42_parsed",
    "C42_tolerance_refuted",
    "C42_default_gap_refuted",
    "C42_reported_solution_refuted"
   ],
   "note": ""
  },
  {
   "property": "C43",
   "status": "proved",
   "theorems": [
    "C43_gap_exit",
    "C43_negative_lower_bound_refuted"
   ],
   "note": ""
  },
  {
   "property": "C44",
   "status": "proved",
   "theorems": [
    "C44_ends",
    "C44_never_raises",
    "C44_progress",
    "C44_progress_positive",
    "C44_zero_bound_refuted"
   ],
   "note": "Proved with the exception stated in the theorem: a division by a lower bound equal to zero (ZeroDivisionError). C44_never_raises excludes it when a point of positive value satisfies every scenario; C44_zero_bound_refuted is a run where it happens. C44_progress covers the configurations with merging, where the number of turns is not bounded: C60 gives instances on which the run never ends, C80 a condition under which it ends."
  },
  {
   "property": "C45",
   "status": "proved",
   "theorems": [
    "C45_check",
    "C45_exact_solver",
    "C45_spurious_failure"
   ],
   "note": ""
  },
  {
   "property": "C46",
   "status": "proved",
   "theorems": [
    "C46_remaining_time",
    "C46_total_time",
    "C46_budget_is_global",
    "C46_solver_limit_negative"
   ],
   "note": ""
  },
  {
   "property": "C47",
   "status": "proved",
   "theorems": [
    "C47_milp_bounds",
    "C47_dropped_rows_refuted"
   ],
   "note": "Bounds for every method. Feasibility of the returned point: all cases except continuous variables with tightened big M's and inexact answers, for which C47_dropped_rows_refuted gives a counterexample."
  },
  {
   "property": "C48",
   "status": "proved",
   "theorems": [
    "C48_milp_row"
   ],
   "note": ""
  },
  {
   "property": "C49",
   "status": "proved",
   "theorems": [
    "C49_row_keyerror",
    "C49_row_layout",
    "C49_main_fails",
    "C49_nothing_written",
    "C49_main_milp",
    "C49_main_other"
   ],
   "note": ""
  },
  {
   "property": "C50",
   "status": "proved",
   "theorems": [
    "C50_percent",
    "C50_read_back",
    "C50_names_agree",
    "C50_injective",
    "C50_float_refuted",
    "C50_shipped"
   ],
   "note": ""
  },
  {
   "property": "C51",
   "status": "proved",
   "theorems": [
    "C51_format_method",
    "C51_errors",
    "C51_solved_iff",
    "C51_required_gap_refuted"
   ],
   "note": ""
  },
  {
   "property": "C52",
   "status": "proved",
   "theorems": [
    "C52_missing_file",
    "C52_all_files",
    "C52_best_method",
    "C52_table",
    "C52_no_overwrite"
   ],
   "note": ""
  },
  {
   "property": "C53",
   "status": "proved",
   "theorems": [
    "C53_cost_monotone",
    "C53_infeasible_monotone",
    "C53_cost_is_optimum"
   ],
   "note": ""
  },
  {
   "property": "C54",
   "status": "proved",
   "theorems": [
    "C54_floor",
    "C54_usual",
    "C54_shipped_exact",
    "C54_percent_floor",
    "C54_one_less_refuted"
   ],
   "note": ""
  },
  {
   "property": "C55",
   "status": "proved",
   "theorems": [
    "C55_saved_bounds"
   ],
   "note": ""
  },
  {
   "property": "C56",
   "status": "proved",
   "theorems": [
    "C56_log_monotone",
    "C56_rows_per_iteration"
   ],
   "note": ""
  },
  {
   "property": "C57",
   "status": "proved",
   "theorems": [
    "C57_gap_error",
    "C57_zero_optimum_refuted"
   ],
   "note": ""
  },
  {
   "property": "C58",
   "status": "proved",
   "theorems": [
    "C58_times"
   ],
   "note": ""
  },
  {
   "property": "C59",
   "status": "proved",
   "theorems": [
    "C59_trace",
    "C59_counter",
    "C59_projection",
    "C59_satisfied_first_refuted"
   ],
   "note": ""
  },
  {
   "property": "C60",
   "status": "proved",
   "theorems": [
    "C60_never_ends",
    "C60_ends_with_merging_refuted"
   ],
   "note": ""
  },
  {
   "property": "C61",
   "status": "proved",
   "theorems": [
    "C61_asked",
    "C61_selected_kept",
    "C61_start_follows"
   ],
   "note": ""
  },
  {
   "property": "C62",
   "status": "proved",
   "theorems": [
    "C62_rounding",
    "C62_stored",
    "C62_loaded",
    "C62_long_decimal_refuted"
   ],
   "note": ""
  },
  {
   "property": "C63",
   "status": "proved",
   "theorems": [
    "C63_flags",
    "C63_verdict",
    "C63_sequential",
    "C63_integrality_refuted"
   ],
   "note": ""
  },
  {
   "property": "C64",
   "status": "proved",
   "theorems": [
    "C64_quantile",
    "C64_selection",
    "C64_permille",
    "C64_risk_level_refuted"
   ],
   "note": ""
  },
  {
   "property": "C65",
   "status": "proved",
   "theorems": [
    "C65_threshold",
    "C65_every_split",
    "C65_optimum",
    "C65_best",
    "C65_packing",
    "C65_solver",
    "C65_unbounded"
   ],
   "note": ""
  },
  {
   "property": "C66",
   "status": "proved",
   "theorems": [
    "C66_table",
    "C66_costs",
    "C66_step",
    "C66_states"
   ],
   "note": ""
  },
  {
   "property": "C67",
   "status": "proved",
   "theorems": [
    "C67_number",
    "C67_not_a_number",
    "C67_load",
    "C67_load_result",
    "C67_unambiguous",
    "C67_generated_text",
    "C67_generated_load",
    "C67_blank_line"
   ],
   "note": ""
  },
  {
   "property": "C68",
   "status": "proved",
   "theorems": [
    "C68_loaded",
    "C68_exact_tables",
    "C68_scenarios",
    "C68_subsets",
    "C68_one_constraint_refuted",
    "C68_fine_data_refuted"
   ],
   "note": ""
  },
  {
   "property": "C69",
   "status": "proved",
   "theorems": [
    "C69_ends",
    "C69_never_raises",
    "C69_close_refuted",
    "C69_progress",
    "C69_progress_positive",
    "C69_solver"
   ],
   "note": "C69_never_raises excludes everything except the assertion on close points, which does fail (C69_close_refuted). Models are assumed to be solved exactly when the variables are continuous (exact_if_cont); C69_solver shows that this can be met."
  },
  {
   "property": "C70",
   "status": "proved",
   "theorems": [
    "C70_optimum_exists",
    "C70_optimum_unique",
    "C70_milp",
    "C70_milp_unknown_method",
    "C70_milp_song_raises",
    "C70_adaptive",
    "C70_adaptive_total",
    "C70_adaptive_cont",
    "C70_adaptive_cont_total",
    "C70_agree",
    "C70_close"
   ],
   "note": "Exact answers (exact_answers) are assumed; C69_solver shows they can be met. In the continuous case C70_adaptive_cont_total has the exception of C69 (assertion on close points)."
  },
  {
   "property": "C71",
   "status": "proved",
   "theorems": [
    "C71_float",
    "C71_not_a_float",
    "C71_shown",
    "C71_shown_read",
    "C71_written",
    "C71_record",
    "C71_newlines",
    "C71_read_written",
    "C71_read_written_refuted",
    "C71_unambiguous",
    "C71_milp_file",
    "C71_adaptive_file",
    "C71_main",
    "C71_read_back",
    "C71_iteration_file",
    "C71_iteration_monotone",
    "C71_table",
    "C71_table_line",
    "C71_export",
    "C71_export_keys",
    "C71_export_error",
    "C71_bounds"
   ],
   "note": "repr of a float is a parameter with the hypothesis that it denotes its number; it is only used for the big-M time, the averages of the tables and the bounds."
  },
  {
   "property": "C72",
   "status": "proved",
   "theorems": [
    "C72_log",
    "C72_log_order",
    "C72_turn_in_time",
    "C72_split_in_time",
    "C72_late_turn",
    "C72_late",
    "C72_lower_model"
   ],
   "note": "The clock may go back except in C72_log_order."
  },
  {
   "property": "C73",
   "status": "proved",
   "theorems": [
    "C73_bracket",
    "C73_run",
    "C73_gap_exit",
    "C73_solver",
    "C73_instances",
    "C73_raises_refuted",
    "C73_value_refuted",
    "C73_belotti_refuted",
    "C73_no_solution_refuted",
    "C73_milp_refuted"
   ],
   "note": "The theorems C73_bracket, C73_run and C73_gap_exit are for all runs without Belotti's big M's; the refuted statements are witnessed by runs with the solver of C73_solver, on the instances of C73_instances."
  },
  {
   "property": "C74",
   "status": "proved",
   "theorems": [
    "C74_gap",
    "C74_gap_sign",
    "C74_gap_test",
    "C74_prune",
    "C74_not_above",
    "C74_tolerance_lost",
    "C74_incumbent",
    "C74_incumbent_refuted",
    "C74_time",
    "C74_percent",
    "C74_progress"
   ],
   "note": "C74_incumbent_refuted: the decision on a candidate at the upper bound is not that of exact arithmetic, as the property says. Overflow and underflow: see C76."
  },
  {
   "property": "C75",
   "status": "proved",
   "theorems": [
    "C75_padded",
    "C75_padded_read",
    "C75_distinct",
    "C75_lines",
    "C75_first_lines",
    "C75_infinity_refuted",
    "C75_known",
    "C75_signs",
    "C75_progress"
   ],
   "note": "C75_infinity_refuted: an unknown upper bound is printed as a text that denotes nothing, as the property says."
  },
  {
   "property": "C76",
   "status": "proved",
   "theorems": [
    "C76_operations",
    "C76_integers",
    "C76_decimals",
    "C76_comparisons",
    "C76_rounding",
    "C76_constants",
    "C76_violated",
    "C76_not_above",
    "C76_pruned",
    "C76_remaining",
    "C76_gap",
    "C76_feasible"
   ],
   "note": ""
  },
  {
   "property": "C77",
   "status": "proved",
   "theorems": [
    "C77_row",
    "C77_subsets",
    "C77_selection",
    "C77_check",
    "C77_splits",
    "C77_levels",
    "C77_understated",
    "C77_level_refuted",
    "C77_bracket_refuted",
    "C77_assertion_refuted",
    "C77_methods_refuted"
   ],
   "note": "The four refuted statements are witnessed by runs: exact enumeration (C77_level_refuted, C77_bracket_refuted) and enumeration with the chance constraint relaxed by 1e-6 (C77_assertion_refuted, C77_methods_refuted)."
  },
  {
   "property": "C78",
   "status": "proved",
   "theorems": [
    "C78_level",
    "C78_capacity",
    "C78_scenarios",
    "C78_scale",
    "C78_items",
    "C78_runs",
    "C78_milp",
    "C78_small_rows_refuted"
   ],
   "note": "C78_small_rows_refuted: two runs with exact enumeration; the tolerance of is_feasible is absolute."
  },
  {
   "property": "C79",
   "status": "proved",
   "theorems": [
    "C79_one_iteration",
    "C79_no_exception",
    "C79_robust_problem",
    "C79_value",
    "C79_any_variables",
    "C79_any_no_exception",
    "C79_any_value"
   ],
   "note": ""
  },
  {
   "property": "C80",
   "status": "proved",
   "theorems": [
    "C80_merge",
    "C80_relaxation",
    "C80_new_point",
    "C80_ends",
    "C80_never_raises",
    "C80_stalls"
   ],
   "note": ""
  },
  {
   "property": "C81",
   "status": "proved",
   "theorems": [
    "C81_error",
    "C81_deadline",
    "C81_too_late",
    "C81_milp_in_time",
    "C81_main_in_time",
    "C81_time_up_refuted",
    "C81_result_refuted"
   ],
   "note": ""
  },
  {
   "property": "C82",
   "status": "proved",
   "theorems": [
    "C82_outcomes",
    "C82_ends",
    "C82_positive",
    "C82_positive_ends"
   ],
   "note": ""
  },
  {
   "property": "C83",
   "status": "proved",
   "theorems": [
    "C83_commands",
    "C83_shipped_once",
    "C83_generated",
    "C83_instance_names",
    "C83_paths",
    "C83_shipped_names",
    "C83_run",
    "C83_files",
    "C83_export",
    "C83_export_ends",
    "C83_adaptive_results_refuted"
   ],
   "note": ""
  },
  {
   "property": "C84",
   "status": "proved",
   "theorems": [
    "C84_reader",
    "C84_shipped_files",
    "C84_names",
    "C84_entries",
    "C84_hypotheses",
    "C84_milp",
    "C84_tables",
    "C84_times",
    "C84_adaptive"
   ],
   "note": ""
  },
  {
   "property": "C85",
   "status": "proved",
   "theorems": [
    "C85_models",
    "C85_turns",
    "C85_milp",
    "C85_unique"
   ],
   "note": ""
  },
  {
   "property": "C86",
   "status": "proved",
   "theorems": [
    "C86_run",
    "C86_milp",
    "C86_depends",
    "C86_milp_depends"
   ],
   "note": ""
  },
  {
   "property": "C87",
   "status": "proved",
   "theorems": [
    "C87_turns",
    "C87_models",
    "C87_unique"
   ],
   "note": ""
  },
  {
   "property": "C88",
   "status": "proved",
   "theorems": [
    "C88_solve",
    "C88_run",
    "C88_file",
    "C88_main"
   ],
   "note": ""
  },
  {
   "property": "C89",
   "status": "proved",
   "theorems": [
    "C89_main_loop",
    "C89_random_loop",
    "C89_more",
    "C89_unique",
    "C89_files",
    "C89_ends",
    "C89_endless"
   ],
   "note": ""
  },
  {
   "property": "C90",
   "status": "proved",
   "theorems": [
    "C90_run",
    "C90_file",
    "C90_slow_refuted"
   ],
   "note": ""
  },
  {
   "property": "C91",
   "status": "proved",
   "theorems": [
    "C91_run",
    "C91_milp",
    "C91_main",
    "C91_random_refuted"
   ],
   "note": ""
  },
  {
   "property": "C92",
   "status": "proved",
   "theorems": [
    "C92_files",
    "C92_messy",
    "C92_phases",
    "C92_split",
    "C92_merge"
   ],
   "note": ""
  },
  {
   "property": "C93",
   "status": "proved",
   "theorems": [
    "C93_model",
    "C93_costs",
    "C93_step",
    "C93_exact",
    "C93_solver"
   ],
   "note": ""
  },
  {
   "property": "C94",
   "status": "proved",
   "theorems": [
    "C94_upper",
    "C94_lower",
    "C94_value",
    "C94_gap",
    "C94_continuous",
    "C94_exact_refuted"
   ],
   "note": ""
  }
 ]
}