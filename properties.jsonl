{"id": "C01", "title": "Feasibility verdict of an instance", "statement": "ChanceKnapInstance.is_feasible(x) answers True exactly when the number of scenarios having at least one constraint violated by more than 1e-6 is at most epsilon*nb_scenarios; the returned count, the per-scenario flags and the per-scenario violation lists agree with that same notion of violation.", "quantifier": "every well-formed instance, every epsilon, every vector x of the right length", "why_tests_cant": "the verdict depends on arbitrary real data; a test fixes one csv file and one x", "anchors": ["src/instance/ChanceKnapInstance.py: is_feasible, _get_scenario_infeasibility, _get_infeasible_scenarios"]}
{"id": "C02", "title": "check_feasibility leaves consistent state", "statement": "After check_feasibility(x), infeasible_scenarios lists (in increasing order, once each) exactly the scenarios violated by more than 1e-6, and get_feasible_scenarios()[s] is True exactly for the others, whatever the norm used for rescaling (as long as it is non-negative).", "quantifier": "every instance, every x, every scenario, every non-negative norm", "why_tests_cant": "two independently computed observables (flags and rescaled maxima) must agree for all data", "anchors": ["src/instance/ChanceKnapInstance.py: check_feasibility, get_feasible_scenarios, get_sum_infeasibility"]}
{"id": "C03", "title": "Tolerance never matters for binary instances", "statement": "For an instance loaded from file with binary variables, the 1e-6 tolerance of is_feasible makes no difference: a scenario is reported violated iff one of its (rounded) constraints is violated at all. For continuous variables this is false.", "quantifier": "every parsed instance (all data rounded to one decimal), every 0/1 vector", "why_tests_cant": "needs the arithmetic fact that A.x-b is a multiple of 0.1, for all data", "anchors": ["src/instance/ChanceKnapInstance.py: _parse_model_data, is_feasible"]}
{"id": "C04", "title": "Packing monotonicity of feasibility", "statement": "With non-negative constraint matrices, lowering some components of a feasible point keeps is_feasible True and cannot add any infeasible scenario.", "quantifier": "every non-negative instance and every pair of points ordered componentwise", "why_tests_cant": "relation between two runs over all points", "anchors": ["src/instance/ChanceKnapInstance.py: is_feasible"]}
{"id": "C05", "title": "Generated files are read back", "statement": "Parsing the rows written by instance-generator.py (header, objective, m rows per scenario, right-hand side) gives back the number of variables, constraints and scenarios, the objective, every scenario matrix and the shared right-hand side, each rounded to one decimal, with equal probabilities summing to one.", "quantifier": "every number of variables, constraints, scenarios and every content", "why_tests_cant": "row-offset arithmetic must be right for all sizes", "anchors": ["data/cc-instances/knapsack/instance-generator.py", "src/instance/ChanceKnapInstance.py: _parse_indices, _parse_additional_parameters, _parse_model_data"]}
{"id": "C06", "title": "Rounding on load", "statement": "Loading rounds every number to the nearest multiple of 0.1: the change is at most 0.05, the operation is idempotent and monotone; consequently a point feasible for the loaded instance may violate the data of the file, by at most (n+1)*0.05 per constraint for x in the unit box.", "quantifier": "every rational datum and every point of the box", "why_tests_cant": "a bound over all data", "anchors": ["src/instance/ChanceKnapInstance.py: _parse_model_data"]}
{"id": "C07", "title": "Partitioned instance exposes exactly its members' constraints", "statement": "After load_partition, the matrix/right-hand side of subset c stack, in order, the constraints of the scenarios of c: row j is constraint j mod m of the (j div m)-th member; x satisfies subset c iff it satisfies each member scenario.", "quantifier": "every instance, every list of scenario lists, every subset, every x", "why_tests_cant": "index arithmetic of reshape for all sizes", "anchors": ["src/instance/PartitionChanceKnapInstance.py: load_partition, get_matrix_A, get_vector_b, get_nb_constraints"]}
{"id": "C08", "title": "Normalised probabilities encode the same chance constraint", "statement": "After load_partition on an instance with equal scenario probabilities, subset probabilities are positive and sum to 1 and the partitioned chance constraint holds for 0/1 indicators z iff at most floor(epsilon*nb_scenarios) indicators are 0.", "quantifier": "every instance, every non-empty partition, every epsilon, every 0/1 vector z", "why_tests_cant": "equivalence over all z", "anchors": ["src/instance/PartitionChanceKnapInstance.py: load_partition, get_proba, get_epsilon", "src/optim/OptiModel.py: _add_chance_constraint"]}
{"id": "C09", "title": "Partitioned problem is a relaxation", "statement": "Every point feasible for the original problem is feasible for the partitioned problem, for any partition and any non-negative scenario probabilities (subset probability = minimum of its members); hence the partitioned optimum is an upper bound.", "quantifier": "every instance, every probability vector, every partition, every feasible x", "why_tests_cant": "soundness of every upper bound computed", "anchors": ["src/instance/PartitionChanceKnapInstance.py: load_partition"]}
{"id": "C10", "title": "Refining tightens, the finest partition is exact", "statement": "If every subset of a partition Q is contained in a subset of partition P and each subset of P contains one of Q, every point feasible for Q's partitioned problem is feasible for P's; for the partition into singletons the partitioned problem is the original one.", "quantifier": "all partitions, all points", "why_tests_cant": "for-all statement about pairs of partitions", "anchors": ["src/instance/PartitionChanceKnapInstance.py", "src/refiner/Refiner.py: refine"]}
{"id": "C11", "title": "Initial partition is a balanced partition", "statement": "create_first_partition(n) with n<=nb_scenarios returns n non-empty, disjoint subsets covering all scenarios, with sizes differing by at most one, for both partition types; its internal assertions never fail, and n>nb_scenarios is rejected.", "quantifier": "every number of scenarios, every n, every random shuffle, every cost vector", "why_tests_cant": "all shuffles and sizes", "anchors": ["src/Initializer.py: create_first_partition, _random_partition, _single_scenario_cost_partition, _check_partitions"]}
{"id": "C12", "title": "Cost-based initial partition never starts above the quantile bound", "statement": "With initial_partition_type='cost' and exactly solved subproblems, the maximum subset cost of the first partition is at most the quantile bound computed at construction, so the first iteration stores its solution as xUB.", "quantifier": "every instance, epsilon in [0,1), every tie-breaking of the sorts", "why_tests_cant": "needs an argument on ranks for all cost vectors", "anchors": ["src/Initializer.py: _single_scenario_cost_partition", "src/solver/AdaptivePartitioner.py: _setup_initial_partition", "src/UpperBounder.py: ahmed_et_al_bound, first_iteration_bound"]}
{"id": "C13", "title": "Quantile bound is valid", "statement": "ahmed_et_al_bound(scenario costs, proba, epsilon), when it returns a number, is at least the objective of every feasible point; it returns nothing (None) exactly when the probabilities cannot reach epsilon+1e-7.", "quantifier": "every instance, every epsilon, every tie-breaking of argsort, every feasible point", "why_tests_cant": "soundness over all feasible points", "anchors": ["src/UpperBounder.py: ahmed_et_al_bound"]}
{"id": "C14", "title": "First-iteration bound is the partitioned optimum", "statement": "When the partition has floor(epsilon*N)+1 subsets, first_iteration_bound returns the optimum of the partitioned problem: its point is feasible for it and no feasible point of the partitioned (hence of the original) problem has a larger objective.", "quantifier": "every instance and partition of that size", "why_tests_cant": "optimality over all points", "anchors": ["src/UpperBounder.py: first_iteration_bound", "src/solver/AdaptivePartitioner.py: _upper_bound"]}
{"id": "C15", "title": "Random refinement returns a correct refinement", "statement": "refine(partition, x) of RandomRefiner, called after x was found infeasible while at most floor(eps N) subsets contain infeasible scenarios, terminates without exception and returns a partition of the same scenarios, without empty subset, with exactly mu=floor(eps N)+1-(#infeasible subsets) more subsets, each subset contained in an old one, feasible subsets unchanged in place.", "quantifier": "every partition, every infeasibility pattern, every random choice", "why_tests_cant": "all random choices, all partitions", "anchors": ["src/refiner/Refiner.py: refine, _split_top_mu_subset, _traverse_subsets_and_split, _split_scenarios_subset, _check_final_partition", "src/refiner/RandomRefiner.py"]}
{"id": "C16", "title": "Refinement cuts off the current solution", "statement": "After refine, more than floor(eps N) subsets of the new partition contain a scenario violated by x, so x is infeasible for the new partitioned problem; this stays true after the merge step.", "quantifier": "every partition, infeasibility pattern, random choice, solver answer of the split model", "why_tests_cant": "progress argument of the algorithm, for all states", "anchors": ["src/refiner/Refiner.py: refine", "src/solver/AdaptivePartitioner.py: _split, _merge"]}
{"id": "C17", "title": "Refinement diverges only on feasible points", "statement": "RandomRefiner.refine called with at most floor(eps N) infeasible scenarios never returns (its while loop makes no progress), and with more than floor(eps N) of them the loop always finishes after at most mu passes.", "quantifier": "every partition, infeasibility pattern, random choice, number of loop turns", "why_tests_cant": "non-termination cannot be tested", "anchors": ["src/refiner/Refiner.py: _split_top_mu_subset"]}
{"id": "C18", "title": "Cost refinement returns a correct refinement", "statement": "refine of CostRefiner has the same guarantees as random refinement for every answer of the split model that satisfies its constraints, and for every content of its memory built by earlier calls; the memory only returns splits of the same scenario set and infeasible set.", "quantifier": "every history of refine calls, every solver answer", "why_tests_cant": "depends on arbitrary call history through the cache", "anchors": ["src/refiner/CostRefiner.py: _evaluate_single_accurate_split, _evaluate_accurate_splits, _perform_accurate_split, accurate_obj_split", "src/optim/AccObjModel.py"]}
{"id": "C19", "title": "Split model bounds the costs after the split", "statement": "Every feasible point of AccObjModel splits the given scenarios in two lists covering them exactly, each with at least one infeasible scenario, and its objective is at least the optimum of the deterministic problem of both sides (weak duality).", "quantifier": "every instance, subset, and feasible point of the split model", "why_tests_cant": "LP duality over all points", "anchors": ["src/optim/AccObjModel.py"]}
{"id": "C20", "title": "Which subset CostRefiner splits", "statement": "If some candidate has post-split cost <= vUB, the split subset has the largest such cost (last among ties); otherwise it has the smallest cost. The selection raises KeyError when every such cost is below -1e6.", "quantifier": "every dictionary of costs, every vUB", "why_tests_cant": "all cost vectors", "anchors": ["src/refiner/CostRefiner.py: _perform_accurate_split"]}
{"id": "C21", "title": "Merging keeps a partition", "statement": "merge_all(partition, candidates) for distinct valid candidates returns a partition of the same scenarios in which the subset of smallest index is the union of the candidates, the other candidates are gone, all other subsets keep their relative order, and the size decreases by len(candidates)-1; deleted/target indices reported are correct.", "quantifier": "every partition and candidate list in any order", "why_tests_cant": "in-place index deletion for all index sets", "anchors": ["src/Merger.py: merge_all, _merge_two_subsets_in_partition, _delete_subsets"]}
{"id": "C22", "title": "Pairwise merge is only safe on disjoint pairs", "statement": "Merger.merge preserves the scenarios when all indices of the two candidate lists are distinct; with chained pairs it can silently drop scenarios.", "quantifier": "every partition and lists of pairs", "why_tests_cant": "all index lists", "anchors": ["src/Merger.py: merge"]}
{"id": "C23", "title": "Merging feasible subsets picks the widest margins", "statement": "merge_feasible with at least mu+1 distinct candidates merges exactly mu+1 of them, and no unmerged candidate has a strictly larger margin than a merged one; margin is non-negative iff the point satisfies the subset.", "quantifier": "every instance, point, candidate list, mu", "why_tests_cant": "all margins and ties", "anchors": ["src/Merger.py: merge_feasible, _single_subset_margin"]}
{"id": "C24", "title": "The merge step never fails", "statement": "In the main loop, after a successful split the merge step never raises: the number of feasible subsets is at least mu, the size equals the minimum partition size when all feasible subsets are merged, and otherwise the partition size after merging equals the size before the split.", "quantifier": "every reachable partition, infeasibility pattern and configuration", "why_tests_cant": "reachability over all histories", "anchors": ["src/solver/AdaptivePartitioner.py: _merge, _merge_all_feasible_subsets, _merge_mu_plus_one_feasible"]}
{"id": "C25", "title": "Subset costs stay aligned with the partition", "statement": "After every split and merge of every iteration, entry c of subset_costs and subset_sols is the answer of the evaluator for exactly the scenarios of subset c, and the lists have one entry per subset.", "quantifier": "every reachable state of the main loop", "why_tests_cant": "invariant over all histories", "anchors": ["src/solver/AdaptivePartitioner.py: _split, _post_merge_processing", "src/Evaluator.py"]}
{"id": "C26", "title": "Ordering of subsets by cost", "statement": "sort_subset_costs(range(k), costs) lists all indices in non-increasing cost (ties by decreasing index); find_inf_candidate, which passes a sub-list of indices with the full cost list, can return indices in the wrong order.", "quantifier": "every cost list and candidate list", "why_tests_cant": "all lists", "anchors": ["src/Merger.py: sort_subset_costs, find_inf_candidate"]}
{"id": "C27", "title": "Warm start follows the subsets", "statement": "get_z_start(zUB, deleted) sets exactly the positions of the previously selected subsets after removal of the deleted ones, provided deleted are the subsets removed since zUB was computed. In the main loop the deleted list of an earlier merge is reused after an iteration without merge, and the start then points to wrong subsets.", "quantifier": "every z vector, every deleted list, every history of merges", "why_tests_cant": "history dependent", "anchors": ["src/Warmstarter.py", "src/UpperBounder.py: partition_bound", "src/Merger.py: deleted_subsets"]}
{"id": "C28", "title": "Pruning never removes an improving solution", "statement": "Fixing to 0 the indicators of subsets with cost <= vLB-1e-3 removes from the partitioned problem only points whose objective is at most vLB-1e-3.", "quantifier": "every partition, exact costs, every vLB, every point", "why_tests_cant": "all points", "anchors": ["src/UpperBounder.py: partition_bound", "src/solver/Solver.py: solve_cclp_model", "src/optim/CCLPModel.py: fix_z_to_zero"]}
{"id": "C29", "title": "Naive big M", "statement": "With non-negative matrices the naive big M of (s,i) is the exact maximum of A_si.x-b_si over the unit box; with a negative coefficient it can be too small, which cuts feasible points.", "quantifier": "every instance, every point of the box", "why_tests_cant": "all points, all data", "anchors": ["src/BigMFinder.py: _naive_bigM"]}
{"id": "C30", "title": "Greedy knapsack is exact", "statement": "solve_continuous_knapsack(r, k, w, C) with non-negative revenues and weights and capacity C>=0 returns the maximum of r.x-k over 0<=x<=1, w.x<=C, whatever the order of equal ratios.", "quantifier": "every data vectors, every tie-breaking of argsort", "why_tests_cant": "optimality over all points", "anchors": ["src/song_big_m.py: solve_continuous_knapsack"]}
{"id": "C31", "title": "Belotti big M", "statement": "For every scenario/constraint (or subset/constraint) the Belotti big M is at least A_si.x-b_si for every x of the box with c.x<=vUB, is never larger than the naive one, and in the continuous case is the smallest valid value; negative objective coefficients break validity.", "quantifier": "every non-negative instance, every partition, every vUB>=0, every x", "why_tests_cant": "all points", "anchors": ["src/BigMFinder.py: run_belotti_et_al_big_M, _single_continuous_belotti_iter, _single_mip_belotti_iter", "src/optim/BigMKnapsackModel.py"]}
{"id": "C32", "title": "Compiled violation table is valid", "statement": "compute_all_violations (C++): entry (s,t,i) is at least A_si.x-b_si for every x of the unit box satisfying scenario t, for every sorting result compatible with the comparator, including all 1e-6 tolerances and early stops.", "quantifier": "every non-negative A, every b, every k,m,n, every sorting routine", "why_tests_cant": "all points, all sorts", "anchors": ["violations.h: update, compute, computeAllViolations", "violations.pyx: compute_all_violations"]}
{"id": "C33", "title": "The comparator given to std::sort is a strict weak order", "statement": "Comp is irreflexive, asymmetric, transitive with transitive incomparability on non-negative data (so std::sort is defined); with negative data transitivity fails.", "quantifier": "all non-negative profit/weight vectors", "why_tests_cant": "undefined behaviour cannot be tested reliably", "anchors": ["violations.h: Comp"]}
{"id": "C34", "title": "Compiled and Python violation tables agree", "statement": "On non-negative data whose entries are 0 or > 1e-6, with at least two constraints per scenario, the compiled table dominates the Python one, and exceeds it by at most a stated tolerance term; with one constraint per scenario the diagonal entries can differ arbitrarily.", "quantifier": "all data", "why_tests_cant": "tests compare on samples", "anchors": ["violations.h", "src/song_big_m.py: compute_all_violations"]}
{"id": "C35", "title": "Song big M", "statement": "run_song_et_al_big_m gives, for scenarios or subsets, a value at least A_si.x-b_si for every x of the box violating at most floor(eps N) scenarios (subsets); the quantile index is in range iff floor(eps N)+1 < number of scenarios/subsets, otherwise an IndexError is raised.", "quantifier": "every non-negative instance, partition, epsilon, x", "why_tests_cant": "all points; boundary of epsilon", "anchors": ["src/BigMFinder.py: run_song_et_al_big_m, _quantile_big_m"]}
{"id": "C36", "title": "Big M model equals indicator model", "statement": "If the big M's are valid on a set R of points, the big M CCLP model and the indicator CCLP model accept the same (x,z) for x in R - for binary variables, and for continuous variables including the dropped constraints.", "quantifier": "every instance/partition, all big M's, all points", "why_tests_cant": "equivalence over all points", "anchors": ["src/optim/OptiModel.py: _add_bigM_constraint, _add_all_bigM_constraints", "src/optim/CCLPModel.py: build"]}
{"id": "C37", "title": "Selection of scenarios for the lower bound", "statement": "The scenarios selected by deterministic_bound are the shortest prefix, in increasing violation order, reaching probability 1-eps-1e-7; any point satisfying them violates at most floor(eps N + 1e-7 N) scenarios, hence is feasible for the original problem when floor(eps N + 1e-7 N)=floor(eps N), and need not be otherwise.", "quantifier": "every instance, epsilon, index vector, tie-breaking", "why_tests_cant": "all orders; float boundary", "anchors": ["src/LowerBounder.py: _get_selected_scenarios, deterministic_bound"]}
{"id": "C38", "title": "Reused lower-bound model holds exactly the selected scenarios", "statement": "After any sequence of lower-bound calls, the reused deterministic model contains exactly the constraints of the currently selected scenarios (no leftovers, none missing), plus objective cuts which are all implied by the largest lower bound passed so far.", "quantifier": "every history of calls", "why_tests_cant": "history dependent incremental model", "anchors": ["src/LowerBounder.py: _solve_deter_model", "src/optim/DeterModel.py: add, remove"]}
{"id": "C39", "title": "Incumbent heuristic", "statement": "incumbent_bound returns an improvement only with a point that passes is_feasible, with objective in [vLB+1e-8, vUB] equal to c.x, and no candidate with these properties has a larger objective; otherwise no such candidate exists.", "quantifier": "every candidate list, bounds, instance", "why_tests_cant": "all lists", "anchors": ["src/LowerBounder.py: incumbent_bound, _find_best_incumbent"]}
{"id": "C40", "title": "Reported bounds bracket the optimum at every interruption point", "statement": "At any moment of the construction and of AdaptivePartitioner.solve before the final assignments - normal exit, exception, SIGALRM/SIGINT between any two state updates, solver interruption, time limit - vLB is attained by a point feasible within 1e-6, and no feasible point has objective above max(vUB, vLB-1e-3). Solver answers are feasible within a tolerance of at most 1e-6 and bounding, and the evaluator's objective values dominate the feasible points of its subset. After the final assignments vLB is attained up to the gap left by the last model. Without exception xLB attains vLB; interrupted between the two assignments of _lower_bound it does not.", "quantifier": "every instance with non-negative data, every configuration, every history, every interruption point", "why_tests_cant": "all crash points", "anchors": ["src/solver/AdaptivePartitioner.py: solve and all private methods", "main.py: timeout_handler"]}
{"id": "C41", "title": "Bounds are monotone", "statement": "During the main loop vLB never decreases and vUB never increases by more than 1e-8 per iteration, whatever the solver answers. The only exception is the assignment vLB=vUB after the loop when the upper-bound solution is feasible: it can lower vLB when the solver uses its feasibility tolerance.", "quantifier": "every history", "why_tests_cant": "invariant over histories", "anchors": ["src/solver/AdaptivePartitioner.py: _upper_bound, _lower_bound, _improve_vlb_with_candidate_sols"]}
{"id": "C42", "title": "Exit on feasible upper-bound solution is optimal", "statement": "If solve stops because the upper-bound solution is feasible, with exactly solved subproblems and data for which the 1e-6 tolerance is irrelevant (parsed binary instances), then xUB=xLB is feasible, vUB=vLB is its objective and an upper bound of all feasible objectives. Each of the three conditions is needed: with data that are not multiples of 0.1, with the default MIP gap of the evaluator (1e-4), or with a bound left 1e-5 above the objective, the value or the solution reported as optimal is wrong.", "quantifier": "every run", "why_tests_cant": "optimality over all runs", "anchors": ["src/solver/AdaptivePartitioner.py: solve", "src/Evaluator.py: subset_cost"]}
{"id": "C43", "title": "Exit on gap", "statement": "If solve stops because the gap is at most the requested gap and vLB>0 then every feasible objective is at most vLB*(1+gap). With vLB negative (negative objectives, or the -1e6 returned for an infeasible lower-bound model) the gap is negative and solve stops although no such guarantee holds; the solution then reported as optimal (xUB) is not feasible.", "quantifier": "every run", "why_tests_cant": "all values of bounds", "anchors": ["src/solver/Solver.py: _compute_gap", "src/solver/AdaptivePartitioner.py: solve, _lower_bound"]}
{"id": "C44", "title": "Termination without merging", "statement": "With use_merger=False and no time limit, for every solver that always answers, within a tolerance of at most 1e-6 on the rows and within its optimality gaps, solve ends after at most nb_scenarios - floor(eps N) iterations, for every random choice, without raising (binary variables). With merging and a point of positive value that satisfies every scenario, solve never raises: it ends with status Feasible, ends on its gap, or is still going on.", "quantifier": "every instance, every random choice, every solver answer", "why_tests_cant": "termination", "anchors": ["src/solver/AdaptivePartitioner.py: solve"]}
{"id": "C45", "title": "Spurious failure for continuous variables", "statement": "For continuous variables the sanity check of the upper bound can reject a legitimate run: two successive different solutions that are numpy-allclose raise AssertionError.", "quantifier": "existence of an instance with rounded data and a configuration", "why_tests_cant": "needs an adversarial instance", "anchors": ["src/UpperBounder.py: _check_results"]}
{"id": "C46", "title": "Time budget", "statement": "get_remaining_time is always between 0 and the limit for a monotone clock, never increases between calls, and total time is the difference of end and start; the start and limit are global: creating another solver resets the budget of the first; the limit handed to the MIP solver can be negative when model building is slow.", "quantifier": "every clock, every sequence of calls", "why_tests_cant": "all schedules", "anchors": ["src/TimeManager.py", "src/solver/Solver.py: __init__, solve_cclp_model"]}
{"id": "C47", "title": "MilpSolver returns valid bounds", "statement": "MilpSolver.solve with any of its big M methods on non-negative instances returns vLB equal to the objective of the returned point and vUB at least every feasible objective; if eps N is not within tau N below an integer (tau the tolerance of the solver), the point is feasible within the tolerance without big M, with naive big M's, with binary variables or with exact answers. With continuous variables, tightened big M's and tolerance 1e-9 a dropped row (negative big M) can be violated by 0.1. Only Belotti's big M's need upper bounds on the scenario costs that are not below the costs.", "quantifier": "every instance, every big M method, every solver answer", "why_tests_cant": "all points", "anchors": ["src/solver/MilpSolver.py", "src/solver/Solver.py: solve_cclp_model"]}
{"id": "C48", "title": "Result row of MilpSolver", "statement": "After solve with big M, the written row has 15 fields: name, n, m, N, type of variables, epsilon, time limit, 100*gap tolerance, big M used, method code, big-M time, time, vLB, vUB, 100*gap, the decimal ones rounded to 10^-3; the method code is 0 for both 'belotti' and 'song'; without big M writing raises AttributeError, with vLB = 0 ZeroDivisionError, without variables IndexError.", "quantifier": "every run", "why_tests_cant": "all configurations", "anchors": ["src/solver/MilpSolver.py: write_all_computation_details, _save_computation_parameters", "src/solver/Solver.py: _get_computation_details"]}
{"id": "C49", "title": "Result row of AdaptivePartitioner", "statement": "write_all_computation_details raises KeyError for every split method and initial partition type accepted by the constructor, so no result row is ever written (a row would have 18 fields in a fixed order); main.py with METHOD 3 or 4 fails before, with TypeError, for the unknown keyword use_balancing.", "quantifier": "every configuration, instance and run", "why_tests_cant": "for-all failure claim", "anchors": ["src/Informer.py: adaptive_details", "src/solver/AdaptivePartitioner.py: write_all_computation_details, solve", "main.py"]}
{"id": "C50", "title": "Result file names", "statement": "The file name written by main.py equals the one read by export_results.py for the same experiment when 100*epsilon is an integer; otherwise (or with floating-point products such as 0.29*100) they can differ. For a fixed rounded epsilon names are injective in (instance, variable type, method). For every whole percentage a, main.py writes a and export_results.py looks for a, or for a-1 if the double of a/100 is too small.", "quantifier": "every instance name, epsilon, method", "why_tests_cant": "all parameters", "anchors": ["main.py", "src/export/format_results.py: read_single_experiment", "src/instance/ChanceInstance.py: get_file_name"]}
{"id": "C51", "title": "Aggregation of results", "statement": "format_method returns the number of rows with gap <= required+1e-7, reports the mean time iff all rows are solved and the mean gap otherwise, and the mean iteration count for adaptive methods. A run whose true gap exceeds the required gap can be counted as solved because the gap is stored with 3 decimals.", "quantifier": "every list of rows", "why_tests_cant": "all tables", "anchors": ["src/export/format_results.py: format_method", "src/solver/Solver.py: _get_computation_details"]}
{"id": "C52", "title": "Best method highlighting", "statement": "In each exported row the highlighted column belongs to the method with the least mean time when one is finite, else among the methods with most solved instances the one with least gap; rows of different experiments never overwrite each other and each instance table contains exactly its rows.", "quantifier": "every table of times/gaps/solved counts", "why_tests_cant": "all tables", "anchors": ["export_results.py"]}
{"id": "C53", "title": "Subset costs are monotone", "statement": "For exactly solved subproblems, the cost of a subset is at most the cost of each of its parts, and the cost of a merged subset at most the minimum of the merged ones.", "quantifier": "all subsets", "why_tests_cant": "all subsets and instances", "anchors": ["src/Evaluator.py: subset_cost"]}
{"id": "C54", "title": "floor(epsilon*N) in floating point", "statement": "In binary64 arithmetic math.floor(epsilon*nb_scenarios) can be one less than the exact value (0.29 with 100 or 3000 scenarios): the number of tolerated scenarios is then understated. For the epsilons and scenario counts of run_all_experiments.sh it is exact; over all percentages and the shipped scenario counts the complete list of exceptions is given. For every decimal epsilon and every number of scenarios (numerator times N below 2^51) it is exact or one less, the latter only if epsilon*N is an integer and the double epsilon is below the decimal; with 0.01, 0.02, 0.05, 0.1, 0.2, 0.25 and 0.5 it is exact for every number of scenarios below 2^50.", "quantifier": "every epsilon and number of scenarios; existence; the finite list of shipped experiments", "why_tests_cant": "numerical boundary", "anchors": ["src/solver/AdaptivePartitioner.py: _setup_initial_partition", "src/refiner/Refiner.py: _find_number_of_splits_to_perform", "src/BigMFinder.py: _quantile_big_m"]}
{"id": "C55", "title": "Saved bound trajectories", "statement": "The bounds file saved by the solver callback contains one row per change: consecutive rows differ in objective or bound, and every (objective, bound) pair reported by the MIP callback appears, negated, as the latest row at that time.", "quantifier": "every sequence of callbacks", "why_tests_cant": "all callback sequences", "anchors": ["src/optim/OptiModel.py: _save_bounds_callback, solve"]}
{"id": "C56", "title": "Iteration log", "statement": "The iteration log has, per completed iteration, the rows of the upper then lower bound steps with non-decreasing iteration index; the logged lower bounds never decrease and the logged upper bounds never increase (up to 1e-8).", "quantifier": "every run", "why_tests_cant": "all histories", "anchors": ["src/Informer.py: store_iteration_info", "src/solver/AdaptivePartitioner.py"]}
{"id": "C57", "title": "Division by zero in the gap", "statement": "_compute_gap raises exactly when vLB is zero and both bounds are Python floats; on an instance with non-negative data whose optimum is 0, solved exactly, solve raises ZeroDivisionError.", "quantifier": "every pair of bounds; existence of an instance", "why_tests_cant": "needs the iff over all bounds and an adversarial instance", "anchors": ["src/solver/Solver.py: _compute_gap", "src/solver/AdaptivePartitioner.py: _lower_bound"]}
{"id": "C58", "title": "Big-M computation times", "statement": "In the exported big-M-time tables each instance has one row per number of scenarios, with the mean big-M time of method 1 over both variable types, then of method 2 for continuous and for binary variables; an entry is '-' exactly when a result file is missing, even if later files are present.", "quantifier": "every set of result files, instances, scenario counts and epsilons", "why_tests_cant": "all combinations of missing files", "anchors": ["export_results.py: big-M computation time tables"]}
{"id": "C59", "title": "Scenarios of the lower-bound problem during a run", "statement": "At every turn of solve, the feasibility counter of a scenario is the number of upper-bound solutions so far that satisfy it within 1e-6; the scenarios kept in the lower-bound problem are a smallest set of probability 1-eps-1e-7 made of the scenarios most often satisfied (projection 'counter') or least violated by the current solution after rescaling by the row norm, violations below 1e-3 counting as none (projection 'rescaled_max_violation'); hence a violated scenario may be preferred to a satisfied one.", "quantifier": "every run, iteration, instance, tie-breaking and solver answers; clock that does not go back", "why_tests_cant": "the counter depends on the whole history of solutions; ordering over all scenarios and ties", "anchors": ["src/LowerBounder.py: save_feasible_scenarios, _get_index_scenarios, _get_scenarios_violation_index, _get_selected_scenarios", "src/solver/AdaptivePartitioner.py: _upper_bound, _lower_bound"]}
{"id": "C60", "title": "Endless runs with merging", "statement": "With merging there are instances on which solve never ends for lack of progress: if a value V exceeds every feasible value by more than the gap tolerance, every scenario alone and some subset of every partition of minimal size admit a point of value V, and every scenario violated by a point of value at least V admits only points of value at most V, then every split is undone by a merge, the partition keeps its minimal size and the upper bound stays at or above V; only a time limit or a signal stops the run. Such an instance exists (N=4, eps=1/4), for every exact solver, every tie-breaking, refiner, first partition, big-M method and gap tolerance below 100%.", "quantifier": "all instances with such a value, all exact solvers, random choices, options, and any number of iterations", "why_tests_cant": "the negation of termination over unboundedly many iterations and all tie-breakings; tests only see a time-out", "anchors": ["src/solver/AdaptivePartitioner.py: solve, _split, _merge", "src/Merger.py", "src/UpperBounder.py: first_iteration_bound"]}
{"id": "C61", "title": "Relaxation solved in each turn and its warm start", "statement": "Whenever the main loop obtains an upper bound from the solver, the model solved is the relaxation of the current partition: the rows of the current subsets (big-M or indicator), the chance constraint on their probabilities, exactly the subsets whose cost is below vLB - 1e-3 fixed to zero, MIP gap 1e-8, and a non-negative time limit at most the time left. The point found satisfies every subset selected by the indicators, so the refiner splits none of them, and the warm start of the next relaxation gives value 1 exactly to the subsets that now contain a subset selected before and not deleted by a merge, provided the deleted list belongs to this turn (otherwise false: C27).", "quantifier": "all instances, partitions reachable by the main loop, options, random choices, clocks and solver answers feasible within 1e-6", "why_tests_cant": "a wrong start or an extra pruned subset changes no final result on small instances, Gurobi repairs or ignores it; only a statement on every turn of every run shows it", "anchors": ["src/solver/AdaptivePartitioner.py: _upper_bound, _split, _merge", "src/UpperBounder.py: partition_bound", "src/Warmstarter.py: get_z_start", "src/optim/CCLPModel.py", "src/solver/Solver.py: solve_cclp_model"]}
{"id": "C62", "title": "Rounding of the data to tenths in binary64", "statement": "Loading a number of the file computes the double nearest to the decimal, multiplies it by 10 (rounded), rounds to an integer (halves to even) and divides by 10 (rounded). For decimals with at most six digits after the point and absolute value at most 10^9 the two roundings before the integer step never change the tenth chosen, ties included, so that the loaded instance holds exactly the doubles nearest to the instance in exact arithmetic. For decimals with more digits it is false.", "quantifier": "every file of such decimals, any sizes", "why_tests_cant": "every tie x.x5 is inexact in binary; the claim is over 10^15 decimals and numbers so close to a tie that a test never meets them", "anchors": ["src/instance/ChanceKnapInstance.py: _parse_model_data (np.round(., decimals=1))"]}
{"id": "C63", "title": "Feasibility check in floating point", "statement": "With data rounded to tenths and a point within delta of a binary point y, the flags, the number of infeasible scenarios and the verdict computed in floating point are those of exact arithmetic without tolerance at y, whatever the order, grouping or fusion of the operations of numpy's dot product: the tolerance 1e-6 absorbs the rounding and hides no violation. It needs delta times the sum of the weights at most 5e-7, (roundings per term + 1) times (sum of weights + capacity) at most 1e8 and, for the verdict, an exact floor of eps*N (C54). With Gurobi's default integrality tolerance 1e-5 it is false.", "quantifier": "all instances of tenths, binary points, rounding functions of relative error 2^-53 and summation orders", "why_tests_cant": "summation order of the linear algebra library is unspecified; errors appear only on particular data", "anchors": ["src/instance/ChanceKnapInstance.py: _get_constraint_violation, _get_scenario_infeasibility, is_feasible"]}
{"id": "C64", "title": "Quantile and scenario selection in floating point", "statement": "The quantile bound and the scenarios kept in the lower-bound problem, computed by accumulating the doubles 1/N and comparing with eps+1e-7 or 1-eps-1e-7, are the same as in exact arithmetic for up to 10^6 scenarios if no multiple of 1/N lies within 1e-9 of the threshold, in particular for every risk level with three decimals and up to 5000 scenarios. For other risk levels it is false: 0.4999999 with 12 scenarios.", "quantifier": "all numbers of scenarios, costs, orders, risk levels, and all roundings of relative error 2^-53", "why_tests_cant": "the accumulated error grows with N and falls on either side of the threshold only for particular pairs (eps, N)", "anchors": ["src/UpperBounder.py: ahmed_et_al_bound", "src/LowerBounder.py: _get_selected_scenarios", "src/instance/ChanceKnapInstance.py: _parse_model_data (probabilities)"]}
{"id": "C65", "title": "Exactness of the split model", "statement": "The MILP of AccObjModel with dual variables and indicator constraints computes the best split: it has a solution of objective at most V exactly when some split of the scenarios, with an infeasible scenario on each side, leaves no point of value above V in the linear relaxation of either side. Every admissible split is reached with its exact cost; an optimal solution exists when every split has a side with a point (always for packing data), its objective is the relaxed cost of the split read back from it, and no admissible split costs less. If some split leaves no point on both sides the model is unbounded.", "quantifier": "all instances, subsets of scenarios, infeasible scenarios, splits and thresholds", "why_tests_cant": "the number of splits is exponential and strong duality concerns every linear program; tests compare one split on one instance", "anchors": ["src/optim/AccObjModel.py: build, get_subsets", "src/refiner/CostRefiner.py: accurate_obj_split"]}
{"id": "C66", "title": "Subset chosen by the refinement by cost", "statement": "With exact answers to the split model, in every state of a refinement by cost, whatever was remembered from earlier refinements, the cost table lists exactly the subsets with at least two infeasible scenarios, each with its best split and the cost of that split. Each turn replaces one subset by the two sides of its best split: the subset whose best split costs most among those costing at most the upper bound, or the one whose best split costs least if there is none.", "quantifier": "all packing instances, exact solvers, histories of refinements, partitions, infeasible scenarios, upper bounds and argsort results", "why_tests_cant": "depends on the memory of earlier calls keyed by sets of scenarios and on unbounded sequences of refinements", "anchors": ["src/refiner/CostRefiner.py: _evaluate_single_accurate_split, _evaluate_accurate_splits, _perform_accurate_split", "src/refiner/Refiner.py: _split_top_mu_subset"]}
{"id": "C67", "title": "Instance files as text", "statement": "A text is loaded as an instance exactly when it consists of rows of unquoted decimal numbers separated by commas and ended by any number of CR and one LF (the last end being optional), and the rows are accepted by the parser; a text has only one reading. A field is accepted as a number exactly when it is a decimal notation with optional sign, fraction, exponent and blanks around it, and its value is the value of that notation. The text written by the instance generator is read back as the generated data rounded to one decimal. A blank line added at the end of a file makes it unreadable unless there is no constraint.", "quantifier": "all texts, all decimal notations, all generated data", "why_tests_cant": "the unit tests load a few well-formed files; malformed and unusual texts are unbounded in number", "anchors": ["src/instance/ChanceInstance.py:22-27", "src/instance/ChanceKnapInstance.py: _parse_indices, _parse_model_data", "data/cc-instances/knapsack/instance-generator.py:66-72"]}
{"id": "C68", "title": "Song's big M's on data in tenths", "statement": "Every loaded instance has its data in tenths. On packing data in tenths with at least two constraints per scenario, the compiled violation table and the Python one have the same entries, and these are the exact least violations; hence the tolerance of the compiled code changes nothing. Song's big M of each row is then at most the naive one, for scenarios and for the subsets of a partition; with one constraint per scenario it is at most the larger of 0 and the naive one, and it can exceed the naive one. On data that are not in tenths it can exceed the naive one even with two constraints.", "quantifier": "all packing instances with data in tenths, risk levels, partitions, sorting results", "why_tests_cant": "the unit tests compare the two tables on one file up to a tolerance; equality for all loaded data depends on the grid of the data and on ties in the sort", "anchors": ["violations.h: update, compute", "src/song_big_m.py", "src/BigMFinder.py: run_song_et_al_big_m, _naive_bigM", "tests/test_BigMFinder.py:72-98"]}
{"id": "C69", "title": "End of a run with continuous variables", "statement": "With continuous variables, an exact solver and right-hand sides of at least a thousandth of the sum of the coefficients of the objective, a run of the adaptive algorithm without merging makes at most N - floor(eps N) turns and ends with a feasible verdict, with the gap reached, or with the assertion of the sanity check because the new solution of the relaxation is close (numpy's tolerances) to the previous one; no other exception is possible, in particular the bound never increases and there is always a previous solution. That assertion can fail under these hypotheses. With merging, each turn is completed, or stops at the division by a zero bound or at the sanity check for the same reason of closeness: the bound never increases with merging either.", "quantifier": "all continuous packing instances satisfying the stated conditions, all options, exact solvers, random choices and sorting results", "why_tests_cant": "the integration tests run two continuous files; the absence of any other exception depends on monotone relaxations over all partitions and on rows dropped for their negative big M's", "anchors": ["src/solver/AdaptivePartitioner.py: solve, _upper_bound, _split", "src/UpperBounder.py: _check_results", "src/optim/CCLPModel.py", "src/BigMFinder.py: run_belotti_et_al_big_M", "tests/integration/test_integration_cont.py"]}
{"id": "C70", "title": "All methods return the optimal value", "statement": "A packing instance has exactly one optimal value. With exact answers of the solver and no outside interruption, MilpSolver (without big M's or with naive, Belotti's or Song's big M's; binary or continuous variables) raises nothing and returns an optimal solution with both bounds equal to the optimal value; it raises for an unknown method, and for Song's method when only one scenario must be satisfied. For binary variables AdaptivePartitioner, with any options, returns a feasible point and bounds that enclose the optimal value within the gap, equal to it for the verdict feasible or a zero gap; without merging it always returns within N - floor(eps N) turns if some point of positive value satisfies every scenario. For continuous variables the same holds up to 1e-3. Hence any two methods agree, whatever their solvers, random choices and options. With answers within tolerances and gaps, whenever both return on a binary instance the intervals of both contain the optimal value (up to the gap 1e-8 of the partition models), so that they differ by their gaps only.", "quantifier": "all packing instances, exact solvers, random choices, sorting results and options", "why_tests_cant": "the integration tests compare 28 calls on two files up to 5 digits; agreement on all instances needs the optimality of each method", "anchors": ["tests/integration/test_integration_bin.py", "tests/integration/test_integration_cont.py", "src/solver/MilpSolver.py: solve", "src/solver/AdaptivePartitioner.py: solve"]}
{"id": "C71", "title": "Result files and exported tables as text", "statement": "float() accepts exactly the decimal notations and the names of the infinities and of nan, and gives their value; a number formatted with d decimals is the nearest such number (half to even) and is read back as that number. csv.writer writes records that read_table reads back, field by field, whatever follows, except that line ends inside a field become one line feed; a text has one reading. The texts written by both solvers and by main.py hold the rows of C48 and C49 and are read by export_results.py as these rows. The file of the iterations has a record for each entry of the log, and its columns are monotone up to rounding. export_results.py on the texts writes the tables of C51, C52 and C58 for the rows; one unreadable file and nothing is written.", "quantifier": "all numbers, numbers of decimals, fields, names, states, runs, tables and file systems", "why_tests_cant": "no test writes or reads a result file; quoting, rounding, non-finite numbers and line ends vary over infinitely many texts", "anchors": ["src/solver/Solver.py: _get_computation_details", "src/solver/MilpSolver.py: write_all_computation_details", "src/solver/AdaptivePartitioner.py: write_all_computation_details, write_iteration_details", "src/Informer.py", "src/export/format_results.py: read_table, write_table, read_single_experiment, format_method", "export_results.py"]}
{"id": "C72", "title": "Iteration log, time tests and lower-bound model of a turn", "statement": "However a run of the adaptive partitioner ends, the time of every row of the iteration log is the time elapsed since construction at a call of the clock made just before the row is written, later rows at later calls, and the gap of the row is (UB-LB)/LB of the bounds of the row (infinite while a bound is missing; nan or infinite for LB = 0). Every turn, every split and every lower-bound problem begins just after a time test that found time left, and the loop is left with the time-limit verdict only after a test that found none. The lower-bound problem of a turn maximises c.x over the points that satisfy the selected scenarios and have c.x at least the lower bound at the beginning of the turn (if this bound is at least -1e6); the new lower bound and its point are those of the answer if it is an improvement, unchanged otherwise.", "quantifier": "every instance, configuration, solver, clock, interruption and number of turns", "why_tests_cant": "history of a run with an arbitrary solver and clock; the tests never run the loop", "anchors": ["src/solver/AdaptivePartitioner.py: solve, _upper_bound, _lower_bound", "src/Informer.py: store_iteration_info", "src/LowerBounder.py: deterministic_bound, _solve_deter_model", "src/TimeManager.py", "src/solver/Solver.py: _compute_gap, _available_time"]}
{"id": "C73", "title": "Bounds when the subset costs are computed with Gurobi's default MIP gap", "statement": "The deterministic problems that give the costs of subsets are solved without setting MIPGap, i.e. to a relative gap g (1e-4 by default), and the margin used for pruning subsets is absolute (1e-3). Without big M's, or with naive or Song's big M's, however the run of the adaptive partitioner ends: the lower bound is attained by a point feasible within the tolerances, and no feasible point has more than (1+g) times the larger of the upper bound and of the lower bound known before the last assignment; on the gap exit no feasible point has more than (1+g)(1+gap) times the reported value. The natural stronger statements fail, each with a run: a run may raise AttributeError on an instance on which exact answers give no exception, replace an optimal incumbent by a solution of half its value and report it with verdict feasible, report a value with no solution at all, and, with Belotti's big M's, end with both bounds 0 although the optimal value is 10001; MilpSolver with Belotti's big M's may return half the optimal value.", "quantifier": "every non-negative instance, configuration, solver with relative gap g on the cost problems, interruption and clock; every fuel", "why_tests_cant": "depends on which near-optimal answer the solver gives; the tests use instances on which the answers happen to be optimal", "anchors": ["src/UpperBounder.py", "src/solver/AdaptivePartitioner.py", "src/optim/DeterModel.py: DeterModel", "src/solver/MilpSolver.py"]}
{"id": "C74", "title": "Comparisons of bounds, gaps and times in doubles", "statement": "Computed with rounded operations (relative error at most 2^-53), the gap is of the same kind as the exact one (number, infinite, nan, ZeroDivisionError) and within a factor 1+2^-51 of it; its sign is exact, and the test of the target gap decides as the exact test outside a band of relative width 2^-51 around the target. Pruning of subsets and the tests of a new upper bound decide as the exact tests outside a band of width 2^-52 times a bound of the values. From 2^27 on, the tolerance 1e-8 of the latter tests has no effect: they are the plain comparison. A candidate accepted as incumbent has a computed objective strictly above the lower bound and at most the upper bound, and it is feasible by the check; its true objective differs by at most 2d 2^-53 of the sum of the absolute terms (d roundings per term, any order of summation). The comparison with the upper bound has no tolerance: an optimal candidate of objective 0.1+0.2 is refused when the upper bound is 0.3, although exact arithmetic accepts it. The remaining time is found positive exactly when it is, up to 2^-52 of the limit. The percentage of the progress is the exact integer quotient, and with at least 100 items every multiple of ten from 0 to 90 is printed.", "quantifier": "every rounding function of relative error 2^-53 (percentages and large bounds: round to nearest even with 53 bits), all bounds, costs, candidates, orders of summation, times and targets", "why_tests_cant": "the bands around ties are of relative width 1e-16; the tests compare to 5 digits", "anchors": ["src/solver/Solver.py: _compute_gap", "src/UpperBounder.py: partition_bound, check_results", "src/solver/AdaptivePartitioner.py: _upper_bound", "src/LowerBounder.py: incumbent_bound", "src/TimeManager.py", "src/Evaluator.py", "src/BigMFinder.py"]}
{"id": "C75", "title": "Console output of an iteration", "statement": "The bounds, the gap in percent and the time are printed with two decimals on at least six characters: the nearest number with two decimals, halves to even, a sign for negative numbers only, zeros added in front of the digits only to reach the width. The text is read back as this number, and numbers more than 0.01 apart are printed differently. With no bound known the lines are the fixed ones with 000inf, -inf and inf; 000inf is not the text of any number nor of an infinity, and it can occur in the first iteration only: at the beginning of every later iteration both bounds are numbers. The upper bound is never -inf and the lower bound never +inf. The progress lines of the evaluator and of the big-M finder show multiples of ten.", "quantifier": "all numbers, widths and numbers of decimals; every instance, configuration, solver, interruption, and clock that does not go back; every iteration", "why_tests_cant": "texts of all rationals, and states of every run; the tests do not read the console", "anchors": ["src/Informer.py: print_iter_info", "src/solver/AdaptivePartitioner.py: solve", "src/Evaluator.py", "src/BigMFinder.py"]}
{"id": "C76", "title": "Doubles of the model are IEEE 754 doubles", "statement": "The binary64 sum, difference, product and quotient, the conversion of integers and the reading of decimals give the double nearest to the exact result, the one of even significand if two are as near, and an infinity from the largest double plus half a unit on, subnormal numbers included; comparisons are exact. The rounding to 53 bits without bounds on the exponent used elsewhere in the model gives the same numbers: always for sums and differences that do not overflow, and for products and quotients in the normal range. Hence the violation of a row, the tests of a new upper bound and of pruning, the remaining time, the gap (bounds between 2^-400 and 2^400) and the verdict of is_feasible, computed on doubles, are those of the rounded model of C63 and C74.", "quantifier": "all doubles, integers and decimals; all bounds, times, products and right-hand sides within the stated ranges", "why_tests_cant": "2^128 pairs of doubles, with ties, subnormal numbers and overflow", "anchors": ["src/solver/Solver.py: _compute_gap", "src/instance/ChanceKnapInstance.py: is_feasible", "src/UpperBounder.py", "src/TimeManager.py", "src/solver/AdaptivePartitioner.py: _upper_bound"]}
{"id": "C77", "title": "Risk levels just below a multiple of 1/N", "statement": "The number of scenarios (subsets) that may be dropped is computed in four ways: by the solver, floor(eps N + tau N) in the complete model and floor(eps N + tau P) in a model with P subsets, tau being its tolerance; by the selection of the lower bound, floor(eps N + 1e-7 N); by is_feasible, by the size of the starting partition and by the number of splits, floor(eps N). For a decimal level read as a double they agree unless eps*N is an integer and the double is below the decimal; then the ones with tolerance give eps*N and the others one less (0.58 with 50 scenarios). At such a level it is false that the adaptive method, with an exact solver, returns the optimum for the decimal level, and that it returns a point its own check accepts; with a level close to a multiple (0.333333) and a solver right within 1e-6 it is false that it does not raise, and that it agrees with the complete model.", "quantifier": "all instances, levels, tolerances, partitions and indicator vectors; existence of the witnesses", "why_tests_cant": "depends on the last bit of epsilon and on tolerances inside the solver", "anchors": ["src/refiner/Refiner.py: _find_number_of_splits_to_perform", "src/LowerBounder.py: _get_selected_scenarios", "src/instance/ChanceKnapInstance.py: is_feasible", "src/solver/AdaptivePartitioner.py", "src/solver/MilpSolver.py", "src/optim/CCLPModel.py"]}
{"id": "C78", "title": "Metamorphic relations", "statement": "Changes of an instance with a known effect on the optimal value: it does not decrease when the risk level or the capacities increase; it is unchanged when scenarios are reordered or each is repeated r times, when rows are multiplied by positive factors, and when items are reordered; it is multiplied by a with the objective. Hence the values returned by two runs of the adaptive method (not out of time), with different solvers, random choices and options, are in the same relation up to the gaps, and so are the bounds returned by MilpSolver. Without the hypothesis that points within 1e-6 of feasibility are feasible this is false for the runs: rows multiplied by 1e-7 change the result.", "quantifier": "all instances, factors, permutations, repetitions, levels; all pairs of worlds, options and runs", "why_tests_cant": "relates two executions on all pairs of related instances", "anchors": ["src/solver/AdaptivePartitioner.py: solve", "src/solver/MilpSolver.py: solve", "src/instance/ChanceKnapInstance.py: is_feasible"]}
{"id": "C79", "title": "Levels below 1/N: one iteration", "statement": "If no scenario may be dropped (epsilon*N < 1), the chance constraint is the conjunction of all scenarios, the adaptive method starts from one subset, and its run, with binary variables or (exact solver, optimal value insensitive to 1e-6) with continuous ones, ends in the first iteration with the verdict 'feasible', for all options, with merging or without; the only possible exception is the division by a lower bound equal to zero, which needs that no point of positive value satisfies all scenarios. With continuous variables the assertion on equal solutions is not reached. With binary variables both bounds returned are the value of a robust solution up to the solver's gap, and no robust solution has a larger one; with continuous variables the first holds up to a further 0.001.", "quantifier": "all instances with floor(eps N) = 0, all options, oracles and solver answers within tolerances", "why_tests_cant": "quantifies over all instances, options and solver answers", "anchors": ["src/solver/AdaptivePartitioner.py: solve, _upper_bound", "src/Initializer.py"]}
{"id": "C80", "title": "Merging and the relaxations", "statement": "When subsets are split and merged again in one iteration, a point that violates every changed subset violates at least as many subsets of the new partition as of the old one; since merging happens only if no changed subset admits a value above the upper bound, the relaxation of the merged partition never exceeds the upper bound. With an exact solver (binary or continuous), in every iteration the point kept as x_upper_bound therefore solves the relaxation of the current partition and the upper bound never grows, with merging or without; the point of the next iteration satisfies a scenario that the previous one violates. With binary variables, if points of equal value that violate too many scenarios violate the same scenarios (in particular if there are no ties), a run with merging ends within 2^n iterations; with ties it may be endless (C60), but then, from some iteration on, every iteration merges and the upper bound is constant.", "quantifier": "all instances, options, random choices, orders, exact solvers and reachable states", "why_tests_cant": "an invariant of the reachable partitions over any number of iterations; termination for all instances without ties", "anchors": ["src/solver/AdaptivePartitioner.py: solve, _split, _merge", "src/Merger.py", "src/UpperBounder.py"]}
{"id": "C81", "title": "Time limits handed to Gurobi", "statement": "The models with scenario variables receive as time limit what is left of the given time after they are built; solve_cclp_model fails with Gurobi's error exactly when building takes longer than the given time. A relaxation of the adaptive method asked for within the time limit is given a limit that ends at the deadline start + time limit, up to the delay between two readings of the clock; after the deadline no relaxation is solved. A run of MilpSolver that ends has computed its big M's within the time limit, and main.py writes a result for methods 1 and 2 only if they take less than the hour. False: a run whose time ends stops with the verdict TimeUp, or writes a result.", "quantifier": "all instances, options, states, solvers and clocks", "why_tests_cant": "depends on where between two readings of the clock the time limit is exceeded", "anchors": ["src/solver/Solver.py: _available_time, solve_cclp_model", "src/UpperBounder.py: partition_bound", "src/solver/MilpSolver.py: solve", "main.py:76-118"]}
{"id": "C82", "title": "Outcomes of runs with signals and a time limit", "statement": "Every run of the adaptive solver, whatever the clock, the signals and the time limit, ends with a feasible relaxation, a closed gap or the time limit (only if it has passed), or with one of: the cycle that merging allows, the division by a zero lower bound, the sanity check of the relaxation (continuous variables), a signal's KeyboardInterrupt, Gurobi's error for a negative time limit (only if the time limit has passed), an AttributeError for a time-limited model that Gurobi leaves without a point. Without merging it takes at most N - floor(eps N) iterations; when a point of positive value satisfies all scenarios the division does not fail.", "quantifier": "all well-formed packing instances, all options, all clocks that do not go back, all signals, all solvers within tolerance that answer the models without time limit", "why_tests_cant": "a test fixes one clock and one moment of interruption; the claim covers every pair of clock and signal", "anchors": ["src/solver/AdaptivePartitioner.py: solve, _upper_bound, _lower_bound", "src/UpperBounder.py: partition_bound", "src/solver/Solver.py: _available_time, solve_cclp_model", "src/LowerBounder.py: deterministic_bound"]}
{"id": "C83", "title": "The shipped experiments", "statement": "The scripts generate 160 instance files without repetition, among them every file the experiments read, and run main.py once for each of the 960 combinations of the lists. Different runs have different result files, none of which is a file of bounds or iterations, and each is the one export_results.py looks for. After all runs the result file of a run is the one written by that run if it ended normally (method 1 or 2 only) and otherwise what was there before. From a directory without results the export ends normally and writes the tables of the rows of the runs; in every row of them the cells of methods 3 and 4 are nan and method 1 or 2 is highlighted.", "quantifier": "all lists whose names fit (levels whose percentage is rounded and truncated to the same number, different for different levels), all instance files, all solvers, clocks and signals of each run, all earlier contents of the directory (files), an empty directory of results (export)", "why_tests_cant": "the 960 runs take up to an hour each; the claim covers every outcome of every run", "anchors": ["run_all_experiments.sh:1-33", "data/cc-instances/knapsack/generate-all-instances.sh", "data/cc-instances/knapsack/instance-generator.py:61-63", "main.py:43-55, 76-118", "export_results.py:8-40, 112-209", "src/export/format_results.py: read_single_experiment"]}
{"id": "C84", "title": "The shipped data satisfy the hypotheses", "statement": "The generator reads a file of the format of data/orlib as the numbers written in it. The eight shipped files have that format, the sizes of their names and non-negative numbers. In an instance generated from them an item that fails in a scenario takes nothing there, another one its normal number (mean of the file, standard deviation 10% of it) cut at 0, up to 0.05005. Every instance read by the shipped experiments satisfies the hypotheses of the theorems on the methods (sizes, signs, level, tolerances, tight or near capacities), whatever the random numbers; a point of positive value satisfies all scenarios with continuous variables, and with binary ones if no normal number exceeds 30. Hence with an exact solver every run of methods 1 and 2 writes the optimal value with gap 0, no exported table misses a time of these methods, and AdaptivePartitioner without merging ends within N - floor(eps N) iterations with the optimal value or its enclosure.", "quantifier": "all files of the format, all random numbers of the generator, all 960 combinations of the shipped lists, all exact solvers, oracles and options of the adaptive method", "why_tests_cant": "the random numbers are arbitrary and the solver is not run; the instances have up to 5000 scenarios", "anchors": ["data/cc-instances/knapsack/instance-generator.py:17-72", "data/cc-instances/knapsack/generate-all-instances.sh:8-14", "data/orlib/instance1.txt - instance8.txt", "src/instance/ChanceInstance.py:22-60", "run_all_experiments.sh:1-33"]}
{"id": "C85", "title": "Number of models solved", "statement": "The models that a run hands to the solver are those on whose answers its result depends and whose interruption ends it with KeyboardInterrupt; this list is determined. Without merging AdaptivePartitioner solves at most floor(eps N) + 2 + (N - floor(eps N) - 1)(B + 4) of them, and N more with the cost initialisation, where B is N m for the big M's of Belotti with binary variables and 0 otherwise: each subset made by a split is solved once, and the splits are bounded by the scenarios. With merging a turn solves at most B + floor(eps N) + 4 models. MilpSolver solves one model, and N + B more with the big M's of Belotti.", "quantifier": "all instances, levels, options, answers of the solver (right or wrong), random choices, clocks, signals and bounds on the turns", "why_tests_cant": "the number depends on every answer of the solver; a test sees one sequence of answers", "anchors": ["src/solver/AdaptivePartitioner.py:75-98", "src/solver/AdaptivePartitioner.py:109-176", "src/solver/AdaptivePartitioner.py:204-336", "src/Evaluator.py:22-80", "src/BigMFinder.py:102-146", "src/refiner/Refiner.py:152-183", "src/refiner/CostRefiner.py:80-115", "src/Merger.py:38-106", "src/solver/MilpSolver.py:19-66", "src/optim/OptiModel.py:183-205"]}
{"id": "C86", "title": "Every model handed to Gurobi is well formed", "statement": "Every model solved by AdaptivePartitioner or MilpSolver has the variables of the instance, an objective that is the one of the instance or the excess of one of its constraints, rows that are constraints of scenarios of the instance (or bounds on its objective, never an unsatisfiable infinite one), indicators and fixed or warm-started indices within the model, each started once and at one, positive probabilities for each indicator, big M's that are not below the threshold, and a nonnegative gap and time limit. The answers of the solver to other models do not matter.", "quantifier": "all instances, levels, options, partitions reached by splits and merges, answers of the solver (right or wrong), random choices, clocks, signals and bounds on the turns", "why_tests_cant": "the models depend on the partition and on the stored rows of all previous turns; a test sees the models of one run", "anchors": ["src/optim/OptiModel.py:14-155", "src/optim/DeterModel.py:11-63", "src/optim/CCLPModel.py:9-90", "src/optim/BigMKnapsackModel.py:24-54", "src/solver/Solver.py:71-123", "src/LowerBounder.py:70-142", "src/Warmstarter.py:7-29", "src/BigMFinder.py:102-146", "src/solver/AdaptivePartitioner.py:75-336", "src/solver/MilpSolver.py:19-66"]}
{"id": "C87", "title": "Split models solved: none twice, and how many", "statement": "The models of accurate splits (AccObjModel) that a run solves are those on whose answers its result depends and whose interruption ends it with KeyboardInterrupt; their list is determined. No two of them are about the same subset of scenarios with the same infeasible scenarios, in any order: the memory of CostRefiner is used whenever it can be. A turn solves at most 2 floor(eps N) + 2 of them, none with the random refiner; without merging a run solves at most (N - floor(eps N))(2 floor(eps N) + 2).", "quantifier": "all instances, levels, options, answers of the solvers (right or wrong), random choices, clocks, signals and bounds on the turns", "why_tests_cant": "whether a subset returns depends on the partitions of all previous turns; a test sees one sequence of answers", "anchors": ["src/refiner/CostRefiner.py:11-16", "src/refiner/CostRefiner.py:29-78", "src/refiner/CostRefiner.py:80-125", "src/refiner/Refiner.py:170-183", "src/refiner/Refiner.py:233-251", "src/optim/AccObjModel.py:10-168", "src/solver/AdaptivePartitioner.py:241-270"]}
{"id": "C88", "title": "Additional signals only cut a run short", "statement": "Add interruptions at any times to a run of the adaptive method. Either nothing changes, or it raises KeyboardInterrupt, and then (unless it was still being constructed) the state left behind is an earlier one of the uninterrupted run: its log is a beginning of the other log, its iteration number and lower bound are not larger (unless the lower bound is finally set to the upper bound), and its upper bound is not smaller but for 1e-8 per turn. The iteration file written after the interruption is a beginning, as text, of the one written without it.", "quantifier": "all instances, options, answers of the solvers (right or wrong), random choices, clocks, bounds on the turns, and all sets of interruption times, with or without interruptions to begin with", "why_tests_cant": "the interruption may come at any of the assignments and solver calls of the run, and a test can only cut at a few of them", "anchors": ["main.py:84-118", "src/solver/AdaptivePartitioner.py:273-367", "src/solver/AdaptivePartitioner.py:131-240", "src/optim/OptiModel.py:185-210", "src/Informer.py:44-57"]}
{"id": "C89", "title": "Result of the program, independent of the bounds on its loops", "statement": "The main loop of the adaptive method and the while loop of the random refiner, which the model runs for a bounded number of turns, end with a result exactly when the unbounded loops do, and with the same one. Larger bounds change nothing, or continue a run that was cut (its log is a beginning of the other, its bounds are not better). So the program has at most one result, and main.py writes the same files whatever the bounds. Without merging it has a result; with merging, on an instance with a trap, it has none.", "quantifier": "all instances, options, solvers, random choices, clocks and signals, all pairs of bounds on the turns (the last two sentences under the hypotheses of C44 and C60)", "why_tests_cant": "that a program never ends, or that a bound on the turns plays no role, cannot be observed in finitely many runs", "anchors": ["src/solver/AdaptivePartitioner.py:273-336", "src/refiner/Refiner.py:170-183", "src/refiner/RandomRefiner.py:16-24", "main.py:76-118"]}
{"id": "C90", "title": "More time only continues a run", "statement": "Compare two runs of the adaptive method that differ in the time limit, with a solver whose answers do not depend on its limit. Either both are the same, or the one with less time ends by a time test or because Gurobi refuses a negative limit, and its log is a beginning of the other log, its iteration number and lower bound are not larger (unless the lower bound is finally set to the upper bound), and its upper bound is not smaller but for 1e-8 per turn. For a right solver whose answers depend on the limit this is false.", "quantifier": "all instances, options, answers of the solver that do not depend on the limit (right or wrong), random choices, signals, clocks that never go back, bounds on the turns and pairs of time limits", "why_tests_cant": "the limit may be reached between any two calls of the clock, and a test cannot place it there", "anchors": ["src/TimeManager.py:23-38", "src/solver/Solver.py:38-40", "src/solver/Solver.py:71-123", "src/UpperBounder.py:80-127", "src/solver/AdaptivePartitioner.py:119-157", "src/solver/AdaptivePartitioner.py:273-336"]}
{"id": "C91", "title": "Sources of nondeterminism of every method", "statement": "Random permutations influence a run of the adaptive method only with the random refiner or the random initial partition, answers of the split models only with the cost refiner, and the order in which std::sort leaves ties only with Song's big M's: with any other values of these the whole final state is the same. So the files written by the program depend on random choices only for method 3, on the split models only for method 4 and on the tie order only for method 1. Random choices do change the number of iterations of method 3.", "quantifier": "all instances, configurations, method numbers, solver answers, clocks, signals, bounds on the turns and pairs of random generators, split answers and sorts", "why_tests_cant": "equality must hold for every random generator and every solver; repeated runs with one seed or one machine cannot show which inputs a run never reads", "anchors": ["main.py:26-30", "main.py:76-118", "src/refiner/RandomRefiner.py:1-24", "src/Initializer.py:14-76", "src/refiner/CostRefiner.py:1-125", "src/refiner/Refiner.py:1-251", "src/BigMFinder.py:1-235", "src/song_big_m.py:1-78", "violations.h:85-95"]}
{"id": "C92", "title": "What the result files show of the solver's state", "statement": "The result file and the iteration file depend only on the bounds (with their types), the starting time, the iteration number, the size of the partition last loaded and the log. So an interruption may leave partitions, costs, solutions, big M's, models and the state of refiner and merger half updated without any effect on the files. Computing big M's and refining change none of the fields shown, whether they end or raise; splitting and merging change only the lower bound and the size, which is the old one or the number of subsets of the new partition, which the solver then holds as well.", "quantifier": "all states, instances, configurations, worlds (solver answers, clocks, signals at any time) and all changes of the fields that are not shown", "why_tests_cant": "an interruption may leave the objects in any of very many half updated states, at times a test cannot choose", "anchors": ["main.py:84-118", "src/solver/Solver.py:42-64", "src/solver/AdaptivePartitioner.py:109-117", "src/solver/AdaptivePartitioner.py:178-270", "src/solver/AdaptivePartitioner.py:338-367", "src/instance/PartitionChanceKnapInstance.py:14-31", "src/Informer.py:33-57"]}
{"id": "C93", "title": "Refinement by cost with split models that are not solved to optimality", "statement": "When every split model is solved within d of its optimum, each cost of the table is at least the relaxed cost of the split stored with it and at most d above the cost of any admissible split. Each turn of the refinement splits the right subset up to d: if the objective found is at most the upper bound, then no subset whose best split costs at most the upper bound minus d has a larger best cost; otherwise no best split costs at most the upper bound minus d, and none costs less than the objective found minus d. With d = 0 these are the exact statements of C65 and C66.", "quantifier": "all packing instances, states of the refiner reachable in a run, infeasible scenarios, upper bounds, tolerances d and solvers of the split models within d", "why_tests_cant": "the answers of a solver with an optimality gap are not determined, and every one of them must lead to a near-best split", "anchors": ["src/optim/AccObjModel.py:11-168", "src/refiner/CostRefiner.py:1-125", "src/refiner/Refiner.py:160-183"]}
{"id": "C94", "title": "Bounds reported with continuous variables", "statement": "If points feasible within 1e-6 are worth less than 0.001 more than feasible ones (continuous packing instances whose right-hand sides are at least a thousandth of the sum of the objective coefficients), then however a run ends - verdict, time limit, signal or exception, with merging or without - no feasible point has a value above the reported upper bound, and some feasible point has a value within 0.001 (and the solver's gap) of the reported lower bound. With the verdict 'feasible' both bounds are equal and hence optimal within 0.001; with 'gap reached' the upper bound is within the required gap of the lower one. The value reported as optimal can exceed that of every feasible point even with an exact solver.", "quantifier": "all packing instances satisfying the condition, all options, time limits, signals, oracles and solver answers within tolerances", "why_tests_cant": "the pruning by vLB - 1e-3 and the tolerance 1e-6 interact only on particular data; the claim covers all data, options and ends of a run", "anchors": ["src/solver/AdaptivePartitioner.py: solve, _upper_bound, _lower_bound", "src/UpperBounder.py:65-140", "src/instance/ChanceKnapInstance.py: is_feasible", "tests/integration/test_integration_cont.py"]}
