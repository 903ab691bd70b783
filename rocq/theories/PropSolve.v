(** Number of models handed to the solver (models_solved, knapsacks, first_costs in SolveSpec.v). *)
From Verif Require Import Base Spec Instance OptModels Initial Adaptive AdaptiveSpec AdaptiveEx AdaptiveEx2 Ex Milp MilpEx
  SolveSpec SolveRuns SolveEx.

(** ** C85 *)

(** Without merging: linear in the number of scenarios, apart from the knapsack models of the big M's.  Whatever the
    answers of the solver, the signals, the clock and the bound on the turns. *)
Theorem C85_models : forall w I cf fuel, oracles_ok w I -> wf_inst I -> (0 <= i_eps I)%Q -> c_merger cf = false ->
  exists L, models_solved w (fun w => run w I cf fuel) L /\
    length L <= first_costs I (c_init cf) + (tolerated I + 2) +
      (i_k I - (tolerated I + 1)) * (knapsacks I (c_bigM cf) (c_method cf) + 4).
Proof. exact models_unmerged. Qed.
Print Assumptions C85_models.

(** In general, for each turn of the main loop. *)
Theorem C85_turns : forall w I cf fuel, oracles_ok w I -> wf_inst I -> (0 <= i_eps I)%Q ->
  exists L, models_solved w (fun w => run w I cf fuel) L /\
    length L <= first_costs I (c_init cf) + (tolerated I + 1) +
      fuel * (knapsacks I (c_bigM cf) (c_method cf) + (tolerated I + 3) + (if c_merger cf then 1 else 0)).
Proof. exact models_turns. Qed.
Print Assumptions C85_turns.

(** The MILP solver. *)
Theorem C85_milp : forall w I cf use method, wf_inst I ->
  exists L, models_solved w (fun w => milp_run w I cf use method) L /\
    length L <= (match method with Belotti => if use then i_k I else 0 | _ => 0 end) + knapsacks I use method + 1.
Proof. exact models_milp. Qed.
Print Assumptions C85_milp.

(** The list of models solved is determined, unless the run was interrupted. *)
Theorem C85_unique : forall A w (go : world -> res A * ast) L L', fst (go w) <> Err KeyboardInterrupt ->
  models_solved w go L -> models_solved w go L' -> L = L'.
Proof. exact @models_unique. Qed.
Print Assumptions C85_unique.

(** Four scenarios, one constraint each, one may fail: the bounds exceed the number of models by at most one, and the
    one of the MILP solver is attained. *)
Example C85_small : let w := brute_world exMid in
  (i_k exMid = 4 /\ i_m exMid = 1 /\ tolerated exMid = 1) /\
  (exists L, models_solved w (fun w => run w exMid ex_plain 9) L /\ 10 <= length L <= 11) /\
  (exists L, models_solved w (fun w => run w exMid (ex_cfg SplitCost InitCost Belotti false true) 9) L /\ 22 <= length L <= 23) /\
  (exists L, models_solved w (fun w => run w exMid (ex_cfg SplitCost InitCost Belotti true true) 3) L /\ 14 <= length L <= 33) /\
  (exists L, models_solved w (fun w => milp_run w exMid ex_plain true Belotti) L /\ length L = 9).
Proof. exact solve_example. Qed.
