{
 "C03": {
  "note": "positive part for binary variables; the continuous analogue is refuted with a witness, as the property says"
 },
 "C28": {
  "note": "indicator formulation; big M formulation through C36"
 },
 "C37": {
  "note": "the unconditional feasibility claim is refuted with a witness, as the property says"
 },
 "C47": {
  "note": "Bounds for every method. Feasibility of the returned point: all cases except continuous variables with tightened big M's and inexact answers, for which C47_dropped_rows_refuted gives a counterexample."
 },
 "C44": {
  "note": "Proved with the exception stated in the theorem: a division by a lower bound equal to zero (ZeroDivisionError). C44_never_raises excludes it when a point of positive value satisfies every scenario; C44_zero_bound_refuted is a run where it happens. C44_progress covers the configurations with merging, where the number of turns is not bounded: C60 gives instances on which the run never ends, C80 a condition under which it ends."
 },
 "C69": {
  "note": "C69_never_raises excludes everything except the assertion on close points, which does fail (C69_close_refuted). Models are assumed to be solved exactly when the variables are continuous (exact_if_cont); C69_solver shows that this can be met."
 },
 "C70": {
  "note": "Exact answers (exact_answers) are assumed; C69_solver shows they can be met. In the continuous case C70_adaptive_cont_total has the exception of C69 (assertion on close points)."
 },
 "C71": {
  "note": "repr of a float is a parameter with the hypothesis that it denotes its number; it is only used for the big-M time, the averages of the tables and the bounds."
 },
 "C72": {
  "note": "The clock may go back except in C72_log_order."
 },
 "C73": {
  "note": "The theorems C73_bracket, C73_run and C73_gap_exit are for all runs without Belotti's big M's; the refuted statements are witnessed by runs with the solver of C73_solver, on the instances of C73_instances."
 },
 "C74": {
  "note": "C74_incumbent_refuted: the decision on a candidate at the upper bound is not that of exact arithmetic, as the property says. Overflow and underflow: see C76."
 },
 "C75": {
  "note": "C75_infinity_refuted: an unknown upper bound is printed as a text that denotes nothing, as the property says."
 },
 "C77": {
  "note": "The four refuted statements are witnessed by runs: exact enumeration (C77_level_refuted, C77_bracket_refuted) and enumeration with the chance constraint relaxed by 1e-6 (C77_assertion_refuted, C77_methods_refuted)."
 },
 "C78": {
  "note": "C78_small_rows_refuted: two runs with exact enumeration; the tolerance of is_feasible is absolute."
 }
}