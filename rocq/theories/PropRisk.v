(** Risk levels just below a multiple of 1/N (C77). *)
From Verif Require Import Rounding RoundingFacts Floats.
From Verif Require Import Base Spec Instance OptModels Initial Bounds Refine CostRefine Merge Violations BigM Adaptive AdaptiveSpec AgreeSpec AdaptiveEx AdaptiveEx2
  Milp RiskFacts RiskEx.

(** ** C77 *)
(** How many scenarios (subsets) may be dropped: four different rules, with floors of eps*N plus different tolerances. *)
(** The chance constraint of the complete model and of a partitioned model, for a solver with tolerance tau. *)
Theorem C77_row : forall I tau x z, wf_inst I -> length z = i_k I -> is_bin z ->
  cstr_ok tau x z (chance_row (milp_view I)) <->
  (Z.of_nat (count (fun v => Qeq_bool v 0) z) <= Qfloor (i_eps I * Qn (i_k I) + tau * Qn (i_k I)))%Z.
Proof. exact row_slack. Qed.
Print Assumptions C77_row.
Theorem C77_subsets : forall I p V tau x z, wf_inst I -> valid_partition (i_k I) p -> load_partition I (uniform (i_k I)) (length p) p = Ok V ->
  length z = length p -> is_bin z ->
  cstr_ok tau x z (chance_row V) <->
  (Z.of_nat (count (fun v => Qeq_bool v 0) z) <= Qfloor (i_eps I * Qn (i_k I) + tau * Qn (length p)))%Z.
Proof. exact subsets_slack. Qed.
Print Assumptions C77_subsets.
(** The scenarios left out by the lower bound. *)
Theorem C77_selection : forall argsort eps k index sel, argsort_ok argsort -> 0 < k -> length index = k -> (eps + (1 # 10000000) < 1)%Q ->
  selected_scenarios argsort (uniform k) eps k index = Ok (Some sel) ->
  (Z.of_nat k - Z.of_nat (length sel) = Qfloor (eps * Qn k + (1 # 10000000) * Qn k))%Z.
Proof. exact selected_count. Qed.
Print Assumptions C77_selection.
(** The feasibility check and the number of splits: no tolerance. *)
Theorem C77_check : forall norm I x,
  fst (fst (fst (fst (is_feasible norm I x)))) = true <-> (Z.of_nat (nviol I tol6 x) <= Qfloor (i_eps I * Qn (i_k I)))%Z.
Proof. exact check_count. Qed.
Print Assumptions C77_check.
Theorem C77_splits : forall I nb, (0 <= i_eps I)%Q ->
  number_of_splits I nb = Err AssertionError <-> (Qfloor (i_eps I * Qn (i_k I)) < Z.of_nat nb)%Z.
Proof. exact splits_raise. Qed.
Print Assumptions C77_splits.

(** For a decimal level read as a double, the rules agree unless eps*N is an integer and the double is below the decimal ... *)
Theorem C77_levels : forall eps tau n, (0 < eps <= 1)%Q -> 0 < n -> (u53 <= tau)%Q ->
  (inject_Z (Zpos (Qden eps)) * Qn n * (tau + u53) < 1)%Q ->
  Qfloor (rnd53 eps * Qn n + tau * Qn n) = Qfloor (rnd53 eps * Qn n) <->
  ~ ((eps * Qn n == inject_Z (Qfloor (eps * Qn n)))%Q /\ (rnd53 eps < eps)%Q).
Proof. exact level_slack. Qed.
Print Assumptions C77_levels.
(** ... and then the rules with tolerance give the number that is meant, the others one less. *)
Theorem C77_understated : forall eps tau n, (0 < eps <= 1)%Q -> 0 < n -> (u53 <= tau)%Q ->
  (inject_Z (Zpos (Qden eps)) * Qn n * (tau + u53) < 1)%Q ->
  (eps * Qn n == inject_Z (Qfloor (eps * Qn n)))%Q -> (rnd53 eps < eps)%Q ->
  Qfloor (rnd53 eps * Qn n) = (Qfloor (eps * Qn n) - 1)%Z /\ Qfloor (rnd53 eps * Qn n + tau * Qn n) = Qfloor (eps * Qn n).
Proof. exact level_understated. Qed.
Print Assumptions C77_understated.

(** Hypotheses: 58% of 50 scenarios (the decimal is above the double), 10% (the double is above), 29% of 50 (no integer). *)
Example C77_levels_example :
  (level58 == rnd53 (58 # 100))%Q /\ b64_floor (58 # 100) 50 = Some 28%Z /\
  (inject_Z 100 * Qn 50 * (tol6 + u53) < 1)%Q /\ (u53 <= tol6)%Q /\
  Qlt_bool (rnd53 (58 # 100)) (58 # 100) = true /\ Qlt_bool (rnd53 (1 # 10)) (1 # 10) = false /\
  Qfloor (level58 * Qn 50) = 28%Z /\ Qfloor (level58 * Qn 50 + (1 # 10000000) * Qn 50) = 29%Z /\ Qfloor (level58 * Qn 50 + tol6 * Qn 50) = 29%Z /\
  Qfloor (rnd53 (29 # 100) * Qn 50) = 14%Z /\ Qfloor (rnd53 (29 # 100) * Qn 50 + tol6 * Qn 50) = 14%Z.
Proof. vm_compute. repeat split; discriminate. Qed.

(** At such a level an exact solver is no help.  The run may lose the point that violates 58% of the scenarios ... *)
Theorem C77_level_refuted : exists I eps, let w := brute_world I in
  ((oracles_ok w I /\ sort_spec (w_sort w) /\ solver_ok w I 0 0 /\ calm w ex_plain /\ options_ok w I ex_plain) /\
  wf_inst I /\ packing I /\ tight I) /\ i_cont I = false /\
  (i_eps I == rnd53 eps)%Q /\ eps = (58 # 100)%Q /\ I = exLost (i_eps I) /\ optimum (exLost eps) 10 /\
  (let '(r, s) := run w I ex_plain 1 in r = Ok Feasible /\ a_vLB s = Fin 0 /\ a_vUB s = Fin 0 /\ a_xLB s = Some [0; 0; 0]%Q).
Proof. exact level_lost. Qed.
Print Assumptions C77_level_refuted.
(** ... or report a point that is_feasible rejects, with both bounds at twice the optimum: without [eps_ok] C40 and C43 are false. *)
Theorem C77_bracket_refuted : exists I, let w := brute_world I in
  ((oracles_ok w I /\ sort_spec (w_sort w) /\ solver_ok w I 0 0 /\ calm w ex_plain /\ options_ok w I ex_plain) /\
  wf_inst I /\ packing I /\ tight I) /\ i_cont I = false /\ (i_eps I == rnd53 (58 # 100))%Q /\ optimum I 5 /\
  (let '(r, s) := run w I ex_plain 1 in r = Ok GapReached /\ a_vLB s = Fin 10 /\ a_vUB s = Fin 10 /\ a_xLB s = Some [1; 0; 0]%Q) /\
  fst (fst (fst (fst (is_feasible (w_norm w) I [1; 0; 0]%Q)))) = false /\ ~ cc_feasible I tol6 [1; 0; 0]%Q.
Proof. exact level_over. Qed.
Print Assumptions C77_bracket_refuted.
(** One third with six digits, six scenarios: a solver that is right within 1e-6 makes the run raise AssertionError.  Without
    [eps_within] C44 is false. *)
Theorem C77_assertion_refuted : exists w I, oracles_ok w I /\ sort_spec (w_sort w) /\ wf_inst I /\ packing I /\ eps_ok I /\ (i_eps I < 1)%Q /\
  solver_ok w I tol6 0 /\ calm w ex_plain /\ options_ok w I ex_plain /\ tight I /\ i_cont I = false /\ 0 < i_n I /\
  (exists y, det_feasible I (seq 0 (i_k I)) 0 y /\ (0 < obj I y)%Q) /\ ~ eps_within I tol6 /\
  (let '(r, s) := run w I ex_plain 5 in r = Err AssertionError /\ a_iter s = 2 /\ a_part s = [[0; 2; 4]; [5; 3]; [1]]).
Proof. exact level_raises. Qed.
Print Assumptions C77_assertion_refuted.
(** One third with six digits, three scenarios: the methods differ, and is_feasible rejects the point of the complete model. *)
Theorem C77_methods_refuted : exists w I, oracles_ok w I /\ sort_spec (w_sort w) /\ wf_inst I /\ packing I /\ eps_ok I /\ (i_eps I < 1)%Q /\
  solver_ok w I tol6 0 /\ calm w ex_plain /\ options_ok w I ex_plain /\ tight I /\ i_cont I = false /\ ~ eps_within I tol6 /\ optimum I 0 /\
  (let '(r, s) := run w I ex_plain 1 in r = Ok Feasible /\ a_vLB s = Fin 0 /\ a_vUB s = Fin 0 /\ a_xLB s = Some [0; 0; 0]%Q) /\
  (forall um, let '(r, s) := milp_run w I ex_plain um Naive in (exists t, r = Ok t) /\ a_vLB s = Fin 10 /\ a_vUB s = Fin 10 /\ a_xLB s = Some [1; 0; 0]%Q) /\
  fst (fst (fst (fst (is_feasible (w_norm w) I [1; 0; 0]%Q)))) = false.
Proof. exact level_methods. Qed.
Print Assumptions C77_methods_refuted.
