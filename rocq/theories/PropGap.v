(** Runs in which the subset costs are computed with Gurobi's default MIP gap: C73. *)
From Verif Require Import Base BaseFacts Spec Instance OptModels Initial Bounds Refine CostRefine Merge Violations BigM Adaptive AdaptiveSpec Milp
  GapSpec AdaptiveGap BruteForce AdaptiveEx AdaptiveEx2 Ex GapEx.

(** Without big M's, or with those that do not use the upper bound: whenever and however the loop is left, no feasible point has more than
    (1 + g) times the larger of the two bounds, and the lower bound is attained. *)
Theorem C73_bracket : forall w I cf tau delta g, oracles_ok w I -> sort_spec (w_sort w) -> wf_inst I -> packing I -> eps_ok I ->
  solver_gap w I tau delta g -> free_of_bound cf -> forall fuel r s, explore w I cf fuel = (r, s) ->
  lower_ok I 0 (a_vLB s) /\ upper_gap I g (a_vUB s) (a_vLB s).
Proof. exact bracket. Qed.
Print Assumptions C73_bracket.

(** At the end of the run the same holds with the lower bound l that was known before the final assignment vLB = vUB. *)
Theorem C73_run : forall w I cf tau delta g, oracles_ok w I -> sort_spec (w_sort w) -> wf_inst I -> packing I -> eps_ok I ->
  solver_gap w I tau delta g -> free_of_bound cf -> forall fuel r s, run w I cf fuel = (r, s) -> lower_ok I delta (a_vLB s) /\
  exists l, (l = a_vLB s \/ (a_vLB s = a_vUB s /\ (r = Ok Feasible \/ r = Err KeyboardInterrupt))) /\ lower_ok I 0 l /\ upper_gap I g (a_vUB s) l.
Proof. exact bracket_run. Qed.
Print Assumptions C73_run.

(** The verdict "gap reached": the reported solution is within both gaps of every feasible point. *)
Theorem C73_gap_exit : forall w I cf tau delta g, oracles_ok w I -> sort_spec (w_sort w) -> wf_inst I -> packing I -> eps_ok I ->
  solver_gap w I tau delta g -> free_of_bound cf -> forall fuel s, (0 <= c_gap cf)%Q -> run w I cf fuel = (Ok GapReached, s) ->
  exists x l u, a_xLB s = Some x /\ a_vLB s = Fin l /\ a_vUB s = Fin u /\ cc_feasible I tol6 x /\ (0 < l)%Q /\ (l <= obj I x)%Q /\
    (u <= l * (1 + c_gap cf))%Q /\ forall y, cc_feasible I 0 y -> (obj I y <= (1 + g) * (l * (1 + c_gap cf)))%Q.
Proof. exact gap_optimal. Qed.
Print Assumptions C73_gap_exit.

(** The solver of the witnesses below: exact on every model with a MIP gap set by the code, and the worst answer within 1e-4 on the others.
    The instances satisfy all hypotheses above and those of C44. *)
Theorem C73_solver : forall I, solver_gap (gap_world I) I 0 0 (1 # 10000).
Proof. exact gap_solver. Qed.
Print Assumptions C73_solver.

Theorem C73_instances : forall I, In I [exGap; exCrash; exLow; exBel; exQuant] -> wf_inst I /\ packing I /\ eps_ok I /\ (i_eps I < 1)%Q /\ tight I /\
  oracles_ok (gap_world I) I /\ sort_spec (w_sort (gap_world I)).
Proof. exact gap_instances. Qed.
Print Assumptions C73_instances.

(** C44_never_raises does not extend to such a solver: the incumbent 10001 makes the code prune two subsets of cost 10001 that were
    evaluated to 10000, the relaxation becomes infeasible and reading its solution raises. *)
Theorem C73_raises_refuted : exists s, run (gap_world exCrash) exCrash ex_plain 20 = (Err AttributeError, s) /\ a_vLB s = Fin 10001 /\ a_vUB s = Fin 20001 /\
  a_costs s = [10000; 20001; 10000]%Q /\ det_feasible exCrash (seq 0 3) 0 [0; 0; 1]%Q /\ (0 < obj exCrash [0; 0; 1])%Q.
Proof. exact crash_witness. Qed.
Print Assumptions C73_raises_refuted.

(** The verdict "feasible" does not bring (1 + g): the optimal solution, of value 10001, is found, then a pruned relaxation gives 5000 and
    the final assignment replaces the incumbent; the run reports an optimal value of 5000. *)
Theorem C73_value_refuted : exists s0 s, explore (gap_world exLow) exLow ex_plain 20 = (Ok Feasible, s0) /\ a_vLB s0 = Fin 10001 /\ a_xLB s0 = Some [1; 0; 0]%Q /\
  run (gap_world exLow) exLow ex_plain 20 = (Ok Feasible, s) /\ a_vLB s = Fin 5000 /\ a_vUB s = Fin 5000 /\ a_xLB s = Some [0; 0; 1]%Q /\
  cc_feasible exLow 0 [1; 0; 0]%Q /\ (obj exLow [1; 0; 0] == 10001)%Q.
Proof. exact low_witness. Qed.
Print Assumptions C73_value_refuted.

(** With Belotti's big M's the bracket itself fails, by any factor: both bounds are 0, the optimal value is 10001. *)
Theorem C73_belotti_refuted : forall ini sp, ini = InitCost \/ ini = InitRandom /\ sp = SplitRandom -> sp <> SplitOther ->
  exists s, explore (gap_world exBel) exBel (ex_cfg sp ini Belotti false true) 20 = (Ok Feasible, s) /\ a_vLB s = Fin 0 /\ a_vUB s = Fin 0 /\
  cc_feasible exBel 0 [1; 0; 0]%Q /\ (obj exBel [1; 0; 0] == 10001)%Q.
Proof. exact belotti_witness. Qed.
Print Assumptions C73_belotti_refuted.

(** A verdict "feasible" with the value 10000 and no solution at all. *)
Theorem C73_no_solution_refuted : exists s, run (gap_world exQuant) exQuant (ex_cfg SplitCost InitCost Naive false false) 20 = (Ok Feasible, s) /\
  a_vLB s = Fin 10000 /\ a_vUB s = Fin 10000 /\ a_xLB s = None /\ a_xUB s = None /\
  cc_feasible exQuant 0 [0; 1; 0]%Q /\ (obj exQuant [0; 1; 0] == 10001)%Q.
Proof. exact none_witness. Qed.
Print Assumptions C73_no_solution_refuted.

(** MilpSolver with Belotti's big M's: 5000 instead of 10001 (C47 needs scenario costs that dominate). *)
Theorem C73_milp_refuted : exists s, milp_run (gap_world exQuant) exQuant ex_plain true Belotti = (Ok (Some 0%Q), s) /\
  a_vLB s = Fin 5000 /\ a_vUB s = Fin 5000 /\ a_xLB s = Some [0; 0; 1]%Q /\
  cc_feasible exQuant 0 [0; 1; 0]%Q /\ (obj exQuant [0; 1; 0] == 10001)%Q.
Proof. exact milp_witness. Qed.
Print Assumptions C73_milp_refuted.

(** The factor is attained: the run reports 10000, the optimal value is 10001. *)
Example C73_example : free_of_bound ex_plain /\
  (let '(r, s) := run (gap_world exGap) exGap ex_plain 20 in r = Ok Feasible /\ a_vLB s = Fin 10000 /\ a_vUB s = Fin 10000) /\
  cc_feasible exGap 0 [0; 1]%Q /\ (obj exGap [0; 1] == 10000 * (1 + (1 # 10000)))%Q /\
  fst (run (gap_world exLow) exLow (ex_cfg SplitRandom InitRandom Naive false true) 20) = Ok Feasible /\
  fst (milp_run (gap_world exQuant) exQuant ex_plain true Song) = Ok (Some 0%Q).
Proof.
  split; [discriminate|]. split; [vm_compute; auto|]. split; [apply cc_feasible_dec; vm_compute; reflexivity|]. vm_compute. auto.
Qed.
