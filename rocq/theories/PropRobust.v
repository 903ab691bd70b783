(** No tolerated scenario: C79. *)
From Verif Require Import Base BaseFacts Spec Instance OptModels Initial Bounds Refine CostRefine Merge Violations BigM Adaptive AdaptiveSpec
  NearSpec AdaptiveRobust RobustCont AdaptiveEx AdaptiveEx2 RobustEx Mip ContEx RobustContEx.

(** If eps*N < 1 the run ends in its first iteration, with merging or without, whatever the options, with the verdict "feasible";
    the only exception is the division by a lower bound equal to zero. *)
Theorem C79_one_iteration : forall w I cf tau delta, oracles_ok w I -> sort_spec (w_sort w) -> wf_inst I -> packing I -> eps_ok I -> (i_eps I < 1)%Q ->
  solver_ok w I tau delta -> eps_within I tau -> calm w cf -> options_ok w I cf -> tight I -> i_cont I = false -> 0 < i_n I -> tolerated I = 0 ->
  forall fuel r s, 0 < fuel -> run w I cf fuel = (r, s) -> (r = Ok Feasible /\ a_iter s = 1) \/ zero_bound r s.
Proof. exact robust_run. Qed.
Print Assumptions C79_one_iteration.

Theorem C79_no_exception : forall w I cf tau delta, oracles_ok w I -> sort_spec (w_sort w) -> wf_inst I -> packing I -> eps_ok I -> (i_eps I < 1)%Q ->
  solver_ok w I tau delta -> eps_within I tau -> calm w cf -> options_ok w I cf -> tight I -> i_cont I = false -> 0 < i_n I -> tolerated I = 0 ->
  (exists y, det_feasible I (seq 0 (i_k I)) 0 y /\ (0 < obj I y)%Q) ->
  forall fuel r s, 0 < fuel -> run w I cf fuel = (r, s) -> r = Ok Feasible /\ a_iter s = 1.
Proof. exact robust_positive. Qed.
Print Assumptions C79_no_exception.

(** The problem is then the robust one, and its optimal value is returned, up to the gap delta of the solver. *)
Theorem C79_robust_problem : forall I, eps_ok I -> tolerated I = 0 -> forall tau x, cc_feasible I tau x <-> det_feasible I (seq 0 (i_k I)) tau x.
Proof. exact robust_point. Qed.
Print Assumptions C79_robust_problem.

Theorem C79_value : forall w I cf tau delta, oracles_ok w I -> sort_spec (w_sort w) -> wf_inst I -> packing I -> eps_ok I ->
  solver_ok w I tau delta -> tight I -> tolerated I = 0 ->
  forall fuel s, run w I cf fuel = (Ok Feasible, s) ->
  exists x v, a_vUB s = Fin v /\ a_vLB s = Fin v /\ det_feasible I (seq 0 (i_k I)) 0 x /\ (v <= obj I x + delta)%Q /\
    forall y, det_feasible I (seq 0 (i_k I)) 0 y -> (obj I y <= v)%Q.
Proof. exact robust_value. Qed.
Print Assumptions C79_value.

Example C79_example :
  (let w := brute_world exRob in oracles_ok w exRob /\ sort_spec (w_sort w) /\ wf_inst exRob /\ packing exRob /\ eps_ok exRob /\ solver_ok w exRob 0 0) /\
  (i_eps exRob < 1)%Q /\ tight exRob /\ i_cont exRob = false /\ tolerated exRob = 0 /\
  (exists y, det_feasible exRob (seq 0 (i_k exRob)) 0 y /\ (0 < obj exRob y)%Q) /\
  (forall sp ini mth mg bm, sp <> SplitOther -> ini <> InitOther -> mth <> OtherM ->
    calm (brute_world exRob) (ex_cfg sp ini mth mg bm) /\ options_ok (brute_world exRob) exRob (ex_cfg sp ini mth mg bm)) /\
  rob_runs = repeat (Ok Feasible, 1, Fin 5) 24.
Proof. exact robust_example. Qed.

(** The same for variables of any kind.  With continuous variables the solver is exact; tolerances of 1e-6 change the optimal value by
    less than 0.001.  The assertion that two solutions differ is not reached. *)
Theorem C79_any_variables : forall w I cf tau delta, oracles_ok w I -> sort_spec (w_sort w) -> wf_inst I -> packing I -> eps_ok I -> (i_eps I < 1)%Q ->
  solver_ok w I tau delta -> eps_within I tau -> (i_cont I = true -> tau = 0%Q) -> calm w cf -> options_ok w I cf -> near I -> exact_if_cont w I ->
  0 < i_n I -> tolerated I = 0 ->
  forall fuel r s, 0 < fuel -> run w I cf fuel = (r, s) -> (r = Ok Feasible /\ a_iter s = 1) \/ zero_bound r s.
Proof. exact robust_run_any. Qed.
Print Assumptions C79_any_variables.

Theorem C79_any_no_exception : forall w I cf tau delta, oracles_ok w I -> sort_spec (w_sort w) -> wf_inst I -> packing I -> eps_ok I -> (i_eps I < 1)%Q ->
  solver_ok w I tau delta -> eps_within I tau -> (i_cont I = true -> tau = 0%Q) -> calm w cf -> options_ok w I cf -> near I -> exact_if_cont w I ->
  0 < i_n I -> tolerated I = 0 -> (exists y, det_feasible I (seq 0 (i_k I)) 0 y /\ (0 < obj I y)%Q) ->
  forall fuel r s, 0 < fuel -> run w I cf fuel = (r, s) -> r = Ok Feasible /\ a_iter s = 1.
Proof. exact robust_positive_any. Qed.
Print Assumptions C79_any_no_exception.

Theorem C79_any_value : forall w I cf tau delta, oracles_ok w I -> sort_spec (w_sort w) -> wf_inst I -> packing I -> eps_ok I ->
  solver_ok w I tau delta -> near I -> tolerated I = 0 ->
  forall fuel s, run w I cf fuel = (Ok Feasible, s) ->
  exists x v, a_vUB s = Fin v /\ a_vLB s = Fin v /\ det_feasible I (seq 0 (i_k I)) 0 x /\ (v < obj I x + delta + (1 # 1000))%Q /\
    forall y, det_feasible I (seq 0 (i_k I)) 0 y -> (obj I y <= v)%Q.
Proof. exact robust_value_any. Qed.
Print Assumptions C79_any_value.

Example C79_continuous :
  (let w := mip_world exRobCont in oracles_ok w exRobCont /\ sort_spec (w_sort w) /\ wf_inst exRobCont /\ packing exRobCont /\ eps_ok exRobCont /\
    solver_ok w exRobCont 0 0 /\ exact_if_cont w exRobCont) /\
  (i_eps exRobCont < 1)%Q /\ near exRobCont /\ i_cont exRobCont = true /\ tolerated exRobCont = 0 /\
  (exists y, det_feasible exRobCont (seq 0 (i_k exRobCont)) 0 y /\ (0 < obj exRobCont y)%Q) /\
  (forall sp ini mth mg bm, sp <> SplitOther -> ini <> InitOther -> mth <> OtherM ->
    calm (mip_world exRobCont) (ex_cfg sp ini mth mg bm) /\ options_ok (mip_world exRobCont) exRobCont (ex_cfg sp ini mth mg bm)) /\
  (let '(r, s) := run (mip_world exRobCont) exRobCont (ex_cfg SplitCost InitCost Belotti true true) 1 in r = Ok Feasible /\ a_iter s = 1 /\ a_vLB s = a_vUB s).
Proof. exact robust_cont_example. Qed.
