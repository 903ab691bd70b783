(** Properties of the bounds reported by the adaptive partitioner: C40, C42, C43, C57. *)
From Verif Require Import Base BaseFacts Spec Instance OptModels Initial Bounds Refine CostRefine Merge Violations BigM Adaptive AdaptiveSpec
  AdaptiveBounds AdaptiveEx AdaptiveEx2 BruteForce Ex.

(** ** C40 *)
(** Every state in which construction, prologue and main loop can stop: return, exception, interruption (w_intr is arbitrary). *)
Theorem C40_bracket : forall w I cf tau delta, oracles_ok w I -> sort_spec (w_sort w) -> wf_inst I -> packing I -> eps_ok I ->
  solver_ok w I tau delta -> forall fuel r s, explore w I cf fuel = (r, s) ->
  lower_ok I 0 (a_vLB s) /\ upper_ok I (a_vUB s) (a_vLB s).
Proof. exact bracket. Qed.
Print Assumptions C40_bracket.

(** The whole run.  After a feasible exit vLB := vUB overwrites the lower bound l. *)
Theorem C40_run : forall w I cf tau delta, oracles_ok w I -> sort_spec (w_sort w) -> wf_inst I -> packing I -> eps_ok I ->
  solver_ok w I tau delta -> forall fuel r s, run w I cf fuel = (r, s) ->
  lower_ok I delta (a_vLB s) /\
  exists l, (l = a_vLB s \/ a_vLB s = a_vUB s) /\ lower_ok I 0 l /\ upper_ok I (a_vUB s) l.
Proof. exact bracket_run. Qed.
Print Assumptions C40_run.

(** Without exception the stored solution attains the lower bound. *)
Theorem C40_incumbent : forall w I cf tau delta, oracles_ok w I -> sort_spec (w_sort w) -> wf_inst I -> packing I -> eps_ok I ->
  solver_ok w I tau delta -> forall fuel v s, explore w I cf fuel = (Ok v, s) ->
  a_vLB s = NInf \/ exists l x, a_vLB s = Fin l /\ a_xLB s = Some x /\ cc_feasible I tol6 x /\ (l <= obj I x)%Q.
Proof. exact incumbent_kept. Qed.
Print Assumptions C40_incumbent.

(** An interruption between the assignments of vLB and xLB in _lower_bound leaves them different. *)
Theorem C40_incumbent_interrupted_refuted : exists s,
  explore (with_intr (brute_world exMid) 27) exMid ex_plain 20 = (Err KeyboardInterrupt, s) /\ a_vLB s = Fin 5 /\ a_xLB s = None.
Proof. exact interrupt_witness. Qed.
Print Assumptions C40_incumbent_interrupted_refuted.

Example C40_example : (let w := brute_world exS in
    oracles_ok w exS /\ sort_spec (w_sort w) /\ wf_inst exS /\ packing exS /\ eps_ok exS /\ solver_ok w exS 0 0) /\
  show_run (run (brute_world exS) exS ex_merge 20) =
  (Ok Feasible, [Fin 14; Fin 14]%Q, [[0; 8]; [2; 1]; [7]; [4]; [5; 6]; [3]], 4,
   [(1, [Fin (-14); Fin (-19)]%Q, 4); (1, [Fin (-14); Fin (-19)]%Q, 4); (2, [Fin (-14); Fin (-18)]%Q, 4); (2, [Fin (-14); Fin (-18)]%Q, 4);
    (3, [Fin (-14); Fin (-18)]%Q, 5); (3, [Fin (-14); Fin (-18)]%Q, 5); (4, [Fin (-14); Fin (-14)]%Q, 6)]).
Proof. split; [apply example_hyps; vm_compute; reflexivity|vm_compute; reflexivity]. Qed.
Example C40_interrupted_example : let r := run (with_intr (brute_world exMid) 30) exMid ex_plain 20 in
  fst r = Err KeyboardInterrupt /\ a_vLB (snd r) = Fin 5 /\ a_vUB (snd r) = Fin 10.
Proof. vm_compute. auto. Qed.

(** ** C42 *)
(** Exact points: within 1e-6 feasible points are feasible (parsed binary instances: C42_parsed). *)
Theorem C42_feasible_exit_is_optimal : forall w I cf tau delta, oracles_ok w I -> sort_spec (w_sort w) -> wf_inst I -> packing I -> eps_ok I ->
  solver_ok w I tau delta -> forall fuel s, tight I -> (delta <= 1 # 100000000)%Q -> run w I cf fuel = (Ok Feasible, s) ->
  exists x v, a_xLB s = Some x /\ a_xUB s = Some x /\ a_vUB s = Fin v /\ a_vLB s = Fin v /\
    cc_feasible I 0 x /\ upper_bound I v /\ (obj I x <= v /\ v <= obj I x + delta)%Q.
Proof. exact feasible_optimal. Qed.
Print Assumptions C42_feasible_exit_is_optimal.

Theorem C42_value_within_gap : forall w I cf tau delta, oracles_ok w I -> sort_spec (w_sort w) -> wf_inst I -> packing I -> eps_ok I ->
  solver_ok w I tau delta -> forall fuel s, tight I -> run w I cf fuel = (Ok Feasible, s) ->
  exists x v, a_vUB s = Fin v /\ a_vLB s = Fin v /\ cc_feasible I 0 x /\ upper_bound I v /\ (v <= obj I x + delta)%Q.
Proof. exact feasible_value. Qed.
Print Assumptions C42_value_within_gap.

Theorem C42_parsed : forall rows eps I, parse rows false eps = Ok I -> tight I.
Proof. exact parsed_tight. Qed.
Print Assumptions C42_parsed.

(** With data that are not multiples of 0.1: a point infeasible by 5e-7 is accepted as incumbent of value 10, the optimum 9 is pruned
    and 5 is reported as the optimal value, all models being solved exactly. *)
Theorem C42_tolerance_refuted : (let w := brute_world exTol in
    oracles_ok w exTol /\ sort_spec (w_sort w) /\ wf_inst exTol /\ packing exTol /\ eps_ok exTol /\ solver_ok w exTol 0 0) /\
  exists s y, run (brute_world exTol) exTol ex_plain 20 = (Ok Feasible, s) /\
    a_vUB s = a_vLB s /\ ext_leb (a_vUB s) (Fin 5) = true /\ cc_feasible exTol 0 y /\ (obj exTol y == 9)%Q.
Proof. exact (conj (example_hyps exTol eq_refl eq_refl eq_refl eq_refl) tolerance_witness). Qed.
Print Assumptions C42_tolerance_refuted.

(** With evaluator answers within the default gap 1e-4: 10000 reported as optimal, 10001 feasible. *)
Theorem C42_default_gap_refuted :
  (forall t m, outcome_ok 0 m (brute_gap t m) /\ forall x z v b, brute_gap t m = Solved x z v b -> (b <= v * (10001 # 10000))%Q \/ b = v) /\
  exists s y, run (ex_world exGap brute_gap) exGap ex_plain 20 = (Ok Feasible, s) /\
    a_vUB s = a_vLB s /\ ext_leb (a_vUB s) (Fin 10000) = true /\ cc_feasible exGap 0 y /\ (obj exGap y == 10001)%Q.
Proof. exact (conj brute_gap_ok gap_witness). Qed.
Print Assumptions C42_default_gap_refuted.

(** With partition models left 1e-5 above an objective of 1000 (relative gap 1e-8): the solution reported as optimal is infeasible. *)
Theorem C42_reported_solution_refuted : (forall I, wf_inst I -> solver_ok (ex_world I brute_slack) I 0 (1 # 100000)) /\
  exists s x, run (ex_world exSlack brute_slack) exSlack ex_plain 20 = (Ok Feasible, s) /\
    a_xLB s = Some x /\ a_xUB s = Some x /\ ~ cc_feasible exSlack tol6 x.
Proof. exact (conj brute_slack_solver slack_witness). Qed.
Print Assumptions C42_reported_solution_refuted.

Example C42_example : (exists rows, parse rows false (1 # 3) = Ok exI) /\
  (let r := run (brute_world exI) exI ex_plain 20 in fst r = Ok Feasible /\ a_xLB (snd r) = Some [1; 0]%Q /\ a_vUB (snd r) = a_vLB (snd r)).
Proof. split; [exists ex_rows; vm_compute; reflexivity|vm_compute; auto]. Qed.

(** ** C43 *)
Theorem C43_gap_exit : forall w I cf tau delta, oracles_ok w I -> sort_spec (w_sort w) -> wf_inst I -> packing I -> eps_ok I ->
  solver_ok w I tau delta -> forall fuel s, (0 <= c_gap cf)%Q -> run w I cf fuel = (Ok GapReached, s) ->
  exists x l u, a_xLB s = Some x /\ a_vLB s = Fin l /\ a_vUB s = Fin u /\ cc_feasible I tol6 x /\ (0 < l)%Q /\ (l <= obj I x)%Q /\
    (u <= l * (1 + c_gap cf))%Q /\ forall y, cc_feasible I 0 y -> (obj I y <= l * (1 + c_gap cf))%Q.
Proof. exact gap_optimal. Qed.
Print Assumptions C43_gap_exit.

(** An infeasible problem (negative right-hand sides) is reported as solved: vLB = -1e6, negative gap, no incumbent. *)
Theorem C43_negative_lower_bound_refuted : (forall x, ~ cc_feasible exNeg 0 x) /\
  exists s, run (brute_world exNeg) exNeg ex_plain 20 = (Ok GapReached, s) /\
    a_vLB s = Fin (- 1000000) /\ a_xLB s = None /\ a_xUB s = Some [0; 1]%Q.
Proof. exact negative_witness. Qed.
Print Assumptions C43_negative_lower_bound_refuted.

Example C43_example : show_run (run (brute_world exMid) exMid ex_gap1 20) =
  (Ok GapReached, [Fin 5; Fin 10]%Q, [[0; 2]; [1; 3]], 1, [(1, [PInf; Fin (- (10))]%Q, 2); (1, [Fin (- (5)); Fin (- (10))]%Q, 2)]).
Proof. exact gap1_example. Qed.

(** ** C57 *)
(** _compute_gap raises exactly for a lower bound equal to zero and two Python floats. *)
Theorem C57_gap_error : forall u nu l nl, (exists e, compute_gap u nu l nl = Err e) <->
  (exists q r, l = Fin q /\ (q == 0)%Q /\ u = Fin r) /\ nu = false /\ nl = false.
Proof. exact compute_gap_error. Qed.
Print Assumptions C57_gap_error.

Theorem C57_zero_optimum_refuted : (let w := brute_world exZero in
    oracles_ok w exZero /\ sort_spec (w_sort w) /\ wf_inst exZero /\ packing exZero /\ eps_ok exZero /\ solver_ok w exZero 0 0) /\
  exists s, run (brute_world exZero) exZero ex_plain 20 = (Err ZeroDivisionError, s) /\
    ext_leb (a_vLB s) (Fin 0) = true /\ a_xLB s = Some [0; 0]%Q /\ a_vUB s = Fin 1.
Proof. exact (conj (example_hyps exZero eq_refl eq_refl eq_refl eq_refl) zero_witness). Qed.
Print Assumptions C57_zero_optimum_refuted.
