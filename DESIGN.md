# Formal model of AdaptiveCC in Rocq (Coq 8.16.1)

## 1. What is modelled, and how

The Python/C++ logic of the repository is modelled as total, computable Gallina
functions, one file per source file (or group of files); each definition cites the
file and lines it models.  Exceptions are values (`res A := Ok | Err exn`), object state
is a record, loops are structural recursion/folds or fuel with an explicit
`NonTermination` error.

* **Numbers** are exact rationals (`Q`), with `+inf/-inf` added for `vUB/vLB` (`ext`) and
  NaN for gaps and table cells (`gapv = option ext`, `None` = NaN).  The algorithms are
  modelled without floating-point rounding. Rounding is modelled separately for the decisions that
  depend on it: `Floats.v` (products with epsilon, with the standard library's `SpecFloat`, pure Gallina, no
  axiom), `Rounding.v` (loading of the data, feasibility check, cumulated probabilities) and `BoundsFl.v` (gaps, tests of bounds, times, progress; C74). There,
  `rnd53` rounds a rational to 53 bits, halves to even, without bounds on the exponent; C62 uses `rnd53`
  itself, C63 and C64 any function of relative error at most 2^-53. C62 to C64 say when the rounded decision is the exact one.
  `Double.v` states round to nearest even of IEEE 754 independently of both; C76 proves that `SpecFloat` meets it and when `rnd53` gives the same numbers.
* **Gurobi** is an oracle: a function from (call number, optimisation model as data) to an
  answer.  The optimisation models themselves (variables, constraints, objective, start,
  limits) are modelled as data with a semantics (`OptModels.v`).  Theorems quantify over every
  oracle meeting a stated specification: answers feasible within `tau <= 1e-6` (every row, also the
  chance constraint), bounds dominate every exactly feasible point (`outcome_ok`, `solver_ok`; indicator variables are
  exactly 0 or 1), optionally exact (`outcome_exact`, `solver_ok w I 0 0`). A violation `tau` of the chance
  constraint matters if eps N is within tau N below an integer; `eps_within` excludes this where needed (C44, C47).  `BruteForce.v` gives a concrete solver for binary models,
  `Line.v` one for models with one continuous variable, and both are proved to meet the specification
  (non-vacuity); they also make the complete algorithms executable inside Coq.
* **Randomness** (`random.sample/shuffle`), **sorting with ties** (`np.argsort`,
  `std::sort`), the **clock**, **asynchronous interruptions** (SIGALRM -> SIGINT) and
  `np.linalg.norm` are oracles, fields of the record `world` (`Adaptive.v`); theorems quantify
  over all of them.  Assumed: permutations are permutations, sorts sort, the norm is
  non-negative (`oracles_ok`, `argsort_ok`, `sort_spec`); where needed, that the clock never goes back
  (`clock_mono`).
* **Interruptions** are modelled at every call of the solver and at every assignment of an
  attribute of the solver object (`put`), so that the state seen by the handler is the one of
  the code.

### Correspondence

| Source | Model |
|--------|-------|
| `src/instance/*.py`, `data/.../instance-generator.py` | `Instance` |
| `src/Initializer.py` | `Initial` |
| `src/UpperBounder.py`, `LowerBounder.py`, `Warmstarter.py`, `TimeManager.py` | `Bounds` |
| `src/optim/*.py` | `OptModels` |
| `src/refiner/Refiner.py`, `RandomRefiner.py` | `Refine` |
| `src/refiner/CostRefiner.py` | `CostRefine` |
| `src/Merger.py` | `Merge` |
| `src/song_big_m.py` | `Knapsack` |
| `violations.h`, `violations.pyx` | `Violations` |
| `src/BigMFinder.py` | `BigM` |
| `src/solver/AdaptivePartitioner.py`, `Solver.py`, `src/Evaluator.py`, `src/Informer.py` | `Adaptive` |
| `src/solver/MilpSolver.py` | `Milp` |
| result rows (`Solver.py:42-64`, `MilpSolver.py:68-82`, `AdaptivePartitioner.py:338-360`) | `Report` |
| `main.py` | `Main` |
| `export_results.py`, `src/export/format_results.py` | `Export` |
| `ChanceKnapInstance.py:26-44, 61-123`, `UpperBounder.py:42-63`, `LowerBounder.py:70-94` in doubles | `Rounding` |
| `Solver.py:26-36`, `UpperBounder.py:34-35, 110-112`, `AdaptivePartitioner.py:147-148`, `LowerBounder.py:107-119`, `TimeManager.py:27-39`, `Evaluator.py:16-19`, `BigMFinder.py:89-92` in doubles | `BoundsFl` |
| the same expressions with `SpecFloat`: `Solver.py:35`, `ChanceKnapInstance.py:61-68, 89-91, 119-121`, `AdaptivePartitioner.py:147-148`, `UpperBounder.py:34-35, 110-112`, `TimeManager.py:36-39` | `Double` |
| console output: `Informer.py:14-31`, `Evaluator.py:16-19`, `BigMFinder.py:89-92` | `Console` |
| text of an instance file: `ChanceInstance.py:22-27` (`csv.reader`), `instance-generator.py:66-72` (`csv.writer`, `repr` of numbers) | `Text` |
| text of the result files, of the files of the iterations and of the bounds, and of the exported tables: `Solver.py:42-64`, `MilpSolver.py:68-82`, `AdaptivePartitioner.py:338-367`, `Informer.py:44-57`, `OptiModel.py:177-180`, `format_results.py:5-31, 80-88`, `export_results.py` | `ResultText` |
| `run_all_experiments.sh`, `data/cc-instances/knapsack/generate-all-instances.sh` (names of the files), the runs of `main.py` and the export after them | `Campaign` |
| `data/cc-instances/knapsack/instance-generator.py` (reading, samples, files), `data/orlib` (contents) | `Orlib`, `OrlibData` |

### Not modelled

* The other messages printed, `write_model_to_file`, licence and Gurobi output parameters (`_set_gurobi_params`).
* Text of files. In `Text` a `csv.Error` is a `ValueError`, a cell left as a string is a `TypeError` when it is used, `inf`, `nan` and
  `_` inside numbers are refused, and `repr` is given for numbers of at most 15 digits in positional notation. In `ResultText`
  `repr` is a parameter (`repr_ok`: it denotes its number), `StopIteration` is `UnboundLocalError`, -0.0 is 0.0 (so a time or gap of a table
  rounded to zero has no sign), an instance with an empty name has an empty first cell, and a key missing in `experiment_dict`
  counts as a missing file. The columns of `Report` and `Export` stand for values; C71 relates them to the texts.
* Experiments (`Campaign`): what a run depends on beside its arguments and its instance file is a function of the command; the directory read by
  `export_results.py` is the one written by `main.py` (with Python before 3.9, `python export_results.py` looks in `/results/tables/` because `__file__` has no directory).
* Generator (`Orlib`): numbers of `data/orlib` are decimals without sign and exponent; the quote character `|` and `\r` have no special
  meaning (neither occurs there); the random numbers are arbitrary rationals and the arithmetic on them is exact; the order in which numpy
  draws them is not modelled.
* Models of the accurate splits (`w_acc`) are not counted in C85 but in C87.
* Attributes without influence: `splitted_subsets`, `self.count`, `zLB`; never called: `get_sum_infeasibility`, `Refiner._is_splittable`.
* Gurobi's lazy update semantics: a model is what has been added when `optimize` is called.
* An interruption inside the refiner, the merger or the big-M finder: the partial in-place
  mutation of lists that is discarded by the handler is not visible in the model. C92 shows
  that the files do not depend on any of these lists.
* Floating-point rounding elsewhere (sums of objective values inside Gurobi, big M's, violations used to sort), overflow and underflow outside the expressions of C76, memory safety of the C++ code beyond the indices used, performance.

## 2. Files

`rocq/theories` is flat; `rocq/_CoqProject` lists the files in dependency order.

* Specification, independent of the model: `Spec` (problem, partitions, bounds) and, for statements
  about runs, `AdaptiveSpec` (reachable states, hypotheses on solver and oracles, what a relaxation must contain) and
  `SplitSpec` (relaxed cost of a split, exact answers of the split model; Gurobi's optimality gap is in `NearSplitSpec`),
  `TextSpec` (grammar of the texts of numbers and of files), `NearSpec` (hypotheses and outcomes of runs with continuous variables), `AgreeSpec` (optimal value, results of the two methods), `ResultSpec` (grammar of records, numbers with d decimals), `LogSpec` (what the iteration log must be),
  `GapSpec` (answers within the default MIP gap), `ConsoleSpec` (numbers padded with zeros), `MetaSpec` (changed instances), `TieSpec` (points of equal value), `OutsideSpec` (signals, time limits, models left without an answer), `CampaignSpec` (names of the files of the experiments, rows of the runs), `OrlibSpec` (format of `data/orlib`, bounds on its numbers, what the theorems ask of an instance), `SolveSpec` (models on which a run depends), `FormSpec` (well-formed models), `CallSpec` (split models on which a run depends), `StopSpec` (worlds with more signals, states further on), `TurnsSpec` (while loops as inductive relations, results of the program), `LimitSpec` (solvers that ignore their time limit), `SourceSpec` (worlds that differ in random choices, split answers and sorting), `ShownSpec` (fields shown by the result files, `main.py` with states that are half updated), `NearSplitSpec` (answers of the split models within d of the optimum).
* Model: the files of the table above, `Base` (Python/numpy primitives), `Floats`, `Rounding`, `BoundsFl`, `Double`, `Text`, `ResultText`, `Console`, `Campaign`, `Orlib`, `OrlibData`.
* Proofs: `*Facts`, `RoundingStore`, `RoundingLoop`, `Farkas`, `SplitDual`, `SplitSelect`, `Post`, `RefineSum`, `ViolTable`, `AdaptiveWp` (weakest preconditions of the
  monad), `AdaptiveStruct`, `AdaptiveStart`, `AdaptiveCount`, `AdaptiveBounds`, `AdaptiveAny`, `AdaptiveEnd`, `AdaptiveQuery`, `AdaptiveCycle`, `TextIff`, `TextGen`, `Tenths`, `ContFacts`, `NearFacts`, `AdaptiveLog`, `AdaptiveGap`, `ConsoleRun`, `AdaptiveRobust`, `RobustCont`, `NearValue`, `AdaptiveTies`, `CampaignExport`.
* Examples and witnesses: `Ex`, `*Ex`, `AdaptiveEx2`, `AccRef`, `BruteForce`, `Line`, `Mip` (exact solvers); `UnitTests` (the unit tests of the repository that need no solver, on the model, with the texts of their data files).
* Property theorems only, each closed by `exact` with `Print Assumptions` below it: `Prop*`.

`tools/manifest.py` regenerates `MANIFEST.json` from the theorem names in `Prop*` and `tools/notes.json`.

## 3. Plan per property

| Id | Stated in | Proof plan |
|----|-----------|------------|
| C01-C04 | `PropInstance` | unfolding + counting lemmas; C03 by integrality of 10*(A.x-b) |
| C05-C06 | `PropInstance` | list-offset induction; arithmetic of round-half-even |
| C07-C10 | `PropInstance` | flat_map/nth arithmetic; counting (pigeonhole) |
| C11-C14, C53 | `PropInitial` | stride permutations; rank argument; prefix of a sorted list; inclusion of feasible sets |
| C15-C20 | `PropRefine` | loop invariant on the partition and the number of infeasible subsets; no-progress for divergence; weak duality for the split model |
| C21-C23, C26 | `PropMerge` | descending deletion, permutation of the concatenation; stable-sort correctness; counterexamples by computation |
| C24, C25, C16/C27 in the loop, C41, C56 | `PropAdaptive` | invariants of the state and exception monad with interruptions |
| C27, C28, C37-C39, C46 | `PropBounds` | rank lemma; prefix sums; invariant over the call history; clock monotonicity |
| C28-C36 | `PropBigM` | exchange argument for the continuous knapsack by a dual (threshold ratio) certificate; quantile pigeonhole |
| C40, C42, C43, C57 | `PropBracket` | invariant "vLB below the optimum, vUB above" at every interruption point |
| C44, C45 | `PropEnd` | number of subsets as a variant, exactness of the relaxation on the finest partition; `_check_results` on a continuous instance by computation |
| C47 | `PropMilp` | composition of C29-C36 |
| C48-C50, C54 | `PropReport` | row layout, string equality, `vm_compute` on `SpecFloat` |
| C50-C52, C58 | `PropExport` | mixed-radix indexing of the tables, argmin with missing values |
| C55 | `PropRefine` | induction over the callback list |
| C59 | `PropProject` | ghost list of the points of a run |
| C60 | `PropCycle` | invariant "partition of minimal size with a subset of value V" |
| C61 | `PropQuery` | the model passed to the solver as a function of the state; selected subsets survive the split |
| C62-C64 | `PropRounding` | ulp arithmetic around ties x.x5; error bound over summation trees against the gap 1/10 between tenths; accumulated error against the margin of the threshold |
| C65, C66 | `PropSplit` | strong duality by Fourier-Motzkin elimination (`Farkas`), optimal points of a linear program by projection, finite choice over splits and queries; invariant of the cost table with the origin of each entry |
| C67 | `PropText` | invariant of the reader automaton on each line of the grammar; converse by induction on the text; digits of a number and their value |
| C68 | `PropTenths` | on a grid of tenths the tolerance 1e-6 decides no comparison, so the loop of the compiled code fills the knapsack exactly; the least violation of a row is at most the sum of its weights minus its right-hand side |
| C69 | `PropCont` | the invariant of C44 with the relaxations monotone; a point feasible within 1e-6 is scaled down to a feasible one; a violated row would be tight at a smaller multiple of the point; Fourier-Motzkin elimination as an exact solver |
| C70 | `PropAgree` | the indicator model solved by `Mip` has an optimum; totality of MilpSolver by weakest preconditions; C40, C42-C44, C69 with the optimal value |
| C71 | `PropResult` | grammar of records and invariant of the reader automaton (as C67, with quoted fields); field by field relation between cells and texts; the aggregation commutes with equality of numbers |
| C72 | `PropLog` | a predicate on log, start and call counter that survives calls and stored rows; invariant of the cuts of the reused model against the present lower bound |
| C73 | `PropGap` | the invariant of C40 with the cost of a subset a bound up to the factor 1+g; witnesses found by a search over small instances |
| C74 | `PropDoubles` | error of one or two rounded operations against the margin; half an ulp of 2^27 exceeds 1e-8; the summation trees of C63 |
| C75 | `PropConsole` | zeros in front do not change the value of digits; which bounds are known after each step, by weakest preconditions |
| C76 | `PropBinary64` | the shifted mantissa with its two extra bits locates the exact value between two integers; a double nearer than the rounding would be a multiple of the same unit |
| C77 | `PropRisk` | the chance row counts zeros; a decimal with denominator d is an integer over N or at least 1/d away from one; witnesses by computation |
| C78 | `PropMeta` | bijections between feasible points; bounds of both runs enclose their optimal values |
| C79 | `PropRobust` | a point refused by the check violates a scenario, hence the only subset; with one subset no relaxation is solved, so the closeness assertion is not reached with continuous variables either |
| C80 | `PropTies` | a merge of mu + 1 subsets after mu splits loses at most mu violated subsets, the splits win mu; rank of the upper bound among the refused points decreases |
| C81 | `PropDeadline` | the limit handed to Gurobi as a function of three readings of the clock |
| C82 | `PropOutside` | the proof of C44 and C69 with a parameter for the exceptions from outside (`AdaptiveAny`); the calm runs are the instance without any |
| C83 | `PropCampaign` | last separator of the names; a fold over the runs changes a result file only at its own run; C49, C50, C52, C71 for the contents |
| C84 | `PropOrlib` | the files as Coq strings, read by computation; rounding bounds for the entries; a light item per file; C70 for the results |
| C85 | `PropSolve` | a calculus for the models solved by a computation, compositional in the monad; a split adds at most two new subsets; the partition grows in every turn |
| C86 | `PropForm` | the result does not depend on answers to ill-formed models, by the monad; rows of the lower-bound model kept through its history; well-formedness is decidable, so the list of C85 can be filtered |
| C87 | `PropCall` | keys of the memory and number of calls of the refiner through its functions, then through the monad; candidates are infeasible subsets |
| C88 | `PropStop` | simulation of the run with signals by the run without, step by step, with the states ordered by progress |
| C89 | `PropTurns` | induction on the turns; runs with different bounds simulate each other until the first is cut, then C88's order of states |
| C90 | `PropLimit` | simulation of the shorter run by the longer; after a failed time test all later tests fail as well |
| C91 | `PropSource` | congruence of every step in the fields of the world that it does not read |
| C92 | `PropShown` | congruence of the writers; frame conditions of the phases |
| C93 | `PropNearSplit` | C65 and C66 with an additive error in every answer |
| C94 | `PropNearValue` | pruning below vLB - 0.001 loses no better point when the tolerance is worth less than 0.001; `exLoose`: two scenarios violated by 5e-7 |

Theorems named `..._refuted` (and `C22_chained_pairs_lose_scenarios`, `C29_negative_cuts`, `C33_negative_cycle`,
`C31_negative_objective`, `C45_spurious_failure`, `C46_solver_limit_negative`) give witnesses against a natural stronger statement; the
property text says which part holds and which does not.

## 4. Trusted base

* Coq 8.16.1: kernel, `vm_compute`, `coqc`'s loading of compiled files.
* `Print Assumptions` for every property theorem (printed when the `Prop*` files are compiled):
  `Closed under the global context` for all of them.  No axiom of the standard library is used; none is added.
  The list of library axioms of the compiled closure (seven parameters of module *types* of
  `Coq.ssr.ssrunder`: `Under_rel.Over_rel`, `Under_rel_from_rel`, `over_rel`, `over_rel_done`, `Under_rel`,
  `Under_relE`, `under_rel_done`) comes from loading that library through the tactics `lra`/`lia`; no theorem depends on it.
* The reading of the source code recorded in the comments of the model, in particular the semantics
  given to numpy/Gurobi/csv calls, and the hypotheses on oracles listed in section 1.

## 5. Findings

Differences between the code and what its documentation or structure suggests; each is a theorem or an example.

| Finding | Where |
|---------|-------|
| METHOD 3 and 4 of `main.py` always raise TypeError (unknown keyword `use_balancing`); without it, the result row raises KeyError for every accepted split method | C49 |
| `belotti` and `song` have the same method code 0; a run without big M cannot be written (AttributeError); neither can a run with lower bound 0 (ZeroDivisionError) | C48 |
| Gap with a lower bound equal to 0 (Python float): ZeroDivisionError in the main loop | C44, C57 |
| With merging, runs may never end; ties in the objective are necessary | C60, C80 |
| The list of deleted subsets is kept after a turn without merge: wrong warm start | C27, C61 |
| `_check_results` rejects legitimate runs with continuous variables | C45, C69 |
| The solution returned on the gap exit is `xUB`, which need not be feasible | C42, C43 |
| Negative TimeLimit passed to Gurobi when the budget is used up between two calls: the run fails, no result is written (`MilpSolver` always, when the big M's use up the hour) | C46, C81 |
| An interruption before the first assignment of `iteration` makes the writing fail | C49 (`started`) |
| Refinement diverges on a feasible point (feasible within the tolerance) | C17 |
| Naive big M and greedy knapsack are wrong with negative data | C29, C30, C31, C33 |
| Tightened big M's drop rows that a point may violate by more than the tolerance (continuous variables) | C47 |
| Ahmed's bound is None for epsilon in (1-1e-7, 1), TypeError later; epsilon = 1 fails an assertion | C11, C13 |
| `floor(0.29*3000)` is 869 in binary64; `int(0.29*100)` is 28 when reading, 29 when writing the file name | C54, C50 |
| At these levels (0.58 with 50 scenarios) solver, lower bound and feasibility check tolerate different numbers of scenarios: the optimum is lost, or the returned point is infeasible by the code's own check; with 0.333333 and 6 scenarios a solver tolerance of 1e-6 leads to an AssertionError | C77 |
| The tolerance 1e-6 of is_feasible is absolute: after multiplying all rows by 1e-7 (same problem) the adaptive method returns an infeasible point | C78 |
| A point within Gurobi's integrality tolerance of a satisfied binary point may count as infeasible | C63 |
| Rescaled violation index: tolerance 1e-3 against 1e-6 elsewhere | C59 |
| A run with gap up to 1.05e-4 counts as solved; rows without data highlight the first method; a NaN time hides the finite ones | C51, C52, C58 |
| `find_inf_candidate` may return its candidates in increasing order of cost | C26 |
| Pairwise merging of chained pairs loses scenarios | C22 |
| Song's big M can exceed the naive one with one constraint per scenario | C68 |
| MilpSolver with Song's big M's raises IndexError when only one scenario must be satisfied | C70 |
| The integration tests compare `vUB` to 5 digits although the default gap is 1e-4: on the gap exit `vUB` may be above the optimal value by the gap | C43, C70 |
| An empty or unreadable result file stops `export_results.py` before any table is written (only a missing file is handled) | C71 |
| A name with a carriage return is not read back as it was written | C71 |
| The costs of subsets are computed with the default MIP gap (relative, 1e-4), the pruning margin is absolute (1e-3): the run may crash, lose its best solution or end with no solution; with Belotti's big M's both bounds may be wrong by any factor | C73 |
| The tolerance 1e-8 of the tests of bounds is lost for bounds from 2^27 on; an optimal candidate of objective 0.1+0.2 is refused at an upper bound of 0.3 | C74 |
| With fewer than ten items most multiples of ten of the progress are skipped; an unknown upper bound is printed as `000inf` | C74, C75 |
| A relaxation that Gurobi leaves without a point at its time limit raises AttributeError: no result | C82 |
| The shipped scripts never produce a result of the adaptive method: in every exported table the columns of methods 3 and 4 are nan and a MILP method is highlighted | C83 |
| Neither point of `test_check_infeasibility` and `test_check_feasibility` is feasible: no unit test sees the verdict True | `UnitTests.test_verdicts` |

## 6. Mutation tests

`seeded/LOG.jsonl` lists the faults seeded in a scratch copy of the model: definition, edit, claim aimed at, property theorems
(and lemmas) that no longer hold, theorems tightened because of it.
