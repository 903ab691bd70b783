(** Changes of an instance with a known effect on the optimal value: C78. *)
From Verif Require Import Base BaseFacts Spec Instance OptModels Initial Bounds Refine CostRefine Merge Violations ViolTable BigM Adaptive AdaptiveSpec
  Milp AgreeSpec AdaptiveEx AdaptiveEx2 MetaSpec MetaFacts MetaEx.

(** The optimal value does not decrease with the risk level. *)
Theorem C78_level : forall I e v v', (i_eps I <= e)%Q -> optimum I v -> optimum (at_level I e) v' -> (v <= v')%Q.
Proof. exact level_optimum. Qed.
Print Assumptions C78_level.

(** It does not decrease with the capacities. *)
Theorem C78_capacity : forall I J v v', larger I J -> optimum I v -> optimum J v' -> (v <= v')%Q.
Proof. exact larger_optimum. Qed.
Print Assumptions C78_capacity.

(** The order of the scenarios, or r copies of each of them, make no difference. *)
Theorem C78_scenarios : forall I l r v, 0 < r -> Permutation l (concat (repeat (seq 0 (i_k I)) r)) -> optimum (reselect I l) v <-> optimum I v.
Proof. exact reselect_optimum. Qed.
Print Assumptions C78_scenarios.

(** Rows may be multiplied by positive factors; a factor of the objective is one of the optimal value. *)
Theorem C78_scale : forall I a f v, (0 < a)%Q -> (forall s i, s < i_k I -> i < i_m I -> (0 < f s i)%Q) -> optimum I v <-> optimum (scaled I a f) (a * v).
Proof. exact scaled_optimum. Qed.
Print Assumptions C78_scale.

(** The order of the items makes no difference. *)
Theorem C78_items : forall I q v, wf_inst I -> Permutation q (seq 0 (i_n I)) -> optimum I v <-> optimum (reorder I q) v.
Proof. exact reorder_optimum. Qed.
Print Assumptions C78_items.

(** Two runs of AdaptivePartitioner that do not run out of time, on instances with a*opt(I) <= opt(J), with different solvers, random choices and options:
    the values returned are in the same relation, up to the gaps of the solver and of the run. *)
Theorem C78_runs : forall w1 w2 I J cf1 cf2 tau1 tau2 delta1 delta2 a, (0 < a)%Q -> (forall v v', optimum I v -> optimum J v' -> (a * v <= v')%Q) ->
  oracles_ok w1 I -> sort_spec (w_sort w1) -> wf_inst I -> packing I -> eps_ok I -> solver_ok w1 I tau1 delta1 -> tight I -> (0 <= c_gap cf1)%Q ->
  oracles_ok w2 J -> sort_spec (w_sort w2) -> wf_inst J -> packing J -> eps_ok J -> solver_ok w2 J tau2 delta2 -> tight J -> (0 <= c_gap cf2)%Q ->
  forall fuel1 fuel2 vd1 vd2 s1 s2, run w1 I cf1 fuel1 = (Ok vd1, s1) -> run w2 J cf2 fuel2 = (Ok vd2, s2) ->
  vd1 = Feasible \/ vd1 = GapReached -> vd2 = Feasible \/ vd2 = GapReached ->
  exists l1 l2, a_vLB s1 = Fin l1 /\ a_vLB s2 = Fin l2 /\ (a * (l1 - delta1) <= l2 * (1 + c_gap cf2))%Q.
Proof. exact runs_related. Qed.
Print Assumptions C78_runs.

(** MilpSolver: the lower bound on one instance and the upper bound on the other. *)
Theorem C78_milp : forall w1 w2 I J cf1 cf2 tau1 tau2 delta1 delta2 um1 um2 meth1 meth2 a, (0 < a)%Q -> (forall v v', optimum I v -> optimum J v' -> (a * v <= v')%Q) ->
  argsort_ok (w_argsort w1) -> sort_spec (w_sort w1) -> wf_inst I -> packing I -> eps_ok I -> solver_ok w1 I tau1 delta1 -> eps_within I tau1 -> i_cont I = false -> tight I ->
  argsort_ok (w_argsort w2) -> sort_spec (w_sort w2) -> wf_inst J -> packing J -> eps_ok J -> solver_ok w2 J tau2 delta2 -> eps_within J tau2 -> i_cont J = false -> tight J ->
  forall bt1 bt2 s1 s2, milp_run w1 I cf1 um1 meth1 = (Ok bt1, s1) -> milp_run w2 J cf2 um2 meth2 = (Ok bt2, s2) ->
  exists v u, a_vLB s1 = Fin v /\ a_vUB s2 = Fin u /\ (a * v <= u)%Q.
Proof. exact milps_related. Qed.
Print Assumptions C78_milp.

(** Without [tight] the runs are not related: with rows multiplied by 1e-7 the check of ChanceKnapInstance.py:90-92 accepts every point, and the run returns
    10 where 5 is optimal. *)
Theorem C78_small_rows_refuted : ~ (forall I f w1 w2, (forall s i, s < i_k I -> i < i_m I -> (0 < f s i)%Q) -> wf_inst I -> packing I -> eps_ok I ->
  solver_ok w1 I 0 0 -> solver_ok w2 (scaled I 1 f) 0 0 -> forall fuel s1 s2, run w1 I ex_plain fuel = (Ok Feasible, s1) ->
  run w2 (scaled I 1 f) ex_plain fuel = (Ok Feasible, s2) -> a_vLB s1 = a_vLB s2).
Proof. exact tiny_refuted. Qed.
Print Assumptions C78_small_rows_refuted.

(** An instance and six changes of it. *)
Example C78_example :
  (forall I, In I (exMid :: exChanged) -> wf_inst I /\ packing I /\ eps_ok I /\ tight I /\ i_cont I = false /\ solver_ok (brute_world I) I 0 0 /\
     oracles_ok (brute_world I) I /\ sort_spec (w_sort (brute_world I))) /\
  larger exMid exTwo /\
  map adaptive_value (exMid :: exChanged) = map (fun v => (Ok Feasible, Fin v)) [5; 10; 5; 5; 15; 5; 10]%Q /\
  map milp_value (exMid :: exChanged) = map (fun v => (Ok None, Fin v)) [5; 10; 5; 5; 15; 5; 10]%Q.
Proof. exact changed_example. Qed.
