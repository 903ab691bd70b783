(** Split models handed to the solver (question, distinct, splits_solved in CallSpec.v). *)
From Verif Require Import Base Spec Instance OptModels Initial Adaptive AdaptiveSpec AdaptiveEx AdaptiveEx2 CycleEx Ex CallSpec CallRuns CallEx.

(** ** C87 *)

(** No split model is solved twice in a run, and each turn solves at most twice as many as infeasible subsets are
    needed.  None with the random refiner.  Whatever the answers of the solvers, the signals and the clock. *)
Theorem C87_turns : forall w I cf fuel, argsort_ok (w_argsort w) -> (0 <= i_eps I)%Q ->
  exists L, splits_solved w (fun w => run w I cf fuel) L /\ distinct L /\
    length L <= fuel * match c_split cf with SplitCost => 2 * tolerated I + 2 | _ => 0 end.
Proof. exact splits_turns. Qed.
Print Assumptions C87_turns.

(** Without merging, whatever the bound on the turns. *)
Theorem C87_models : forall w I cf fuel, oracles_ok w I -> wf_inst I -> (0 <= i_eps I)%Q -> c_merger cf = false ->
  exists L, splits_solved w (fun w => run w I cf fuel) L /\ distinct L /\ length L <= (i_k I - tolerated I) * (2 * tolerated I + 2).
Proof. exact splits_unmerged. Qed.
Print Assumptions C87_models.

(** The list of questions is determined, unless the run was interrupted. *)
Theorem C87_unique : forall A w (go : world -> res A * ast) L L', fst (go w) <> Err KeyboardInterrupt ->
  splits_solved w go L -> splits_solved w go L' -> L = L'.
Proof. exact splits_unique. Qed.
Print Assumptions C87_unique.

(** Two questions of a run with merging; three questions of thirty turns of an endless run (C60), the others being
    answered from memory. *)
Example C87_small :
  (exists L, splits_solved (brute_world exMid) (fun w => run w exMid (ex_cfg SplitCost InitCost Belotti true true) 9) L /\ distinct L /\
     L = [([1; 3], [1; 3]); ([0; 2; 3], [0; 2])]) /\
  (exists L, splits_solved (brute_world exC) (fun w => run w exC (ex_cfg SplitCost InitCost Belotti true true) 30) L /\ distinct L /\ length L = 3 /\
     fst (run (brute_world exC) exC (ex_cfg SplitCost InitCost Belotti true true) 30) = Err NonTermination).
Proof. exact call_example. Qed.
