(** Properties of the end of a run: C44, C45. *)
From Verif Require Import Base BaseFacts Spec Instance OptModels Initial Bounds Refine CostRefine Merge Violations ViolTable BigM Adaptive AdaptiveSpec NearSpec
  AdaptiveEnd AdaptiveEx AdaptiveEx2 EndEx Line SameEx Main Ex BruteForce.

(** ** C45 *)
(** When the sanity check fails: never for binary variables; otherwise iff the two solutions agree up to numpy's tolerances
    (relative 1e-5, absolute 1e-8), or the bound grew. *)
Theorem C45_check : forall cont merged x v xUB vUB, (forall y, xUB = Some y -> length x = length y) ->
  (check_results cont merged x v xUB vUB = Err AssertionError <->
   cont = true /\ ((merged = false /\ exists y, xUB = Some y /\ close_to x y) \/
                   ((merged = true \/ xUB <> None) /\ ext_leb (Fin v) (ext_add vUB (1 # 100000000)) = false))).
Proof. exact check_spec. Qed.
Print Assumptions C45_check.

(** The solver of the witness answers every model in one continuous variable, and every binary model, exactly. *)
Theorem C45_exact_solver : forall m, m_cont m = false \/ m_n m = 1 -> outcome_exact m (line m).
Proof. exact line_exact. Qed.
Print Assumptions C45_exact_solver.

(** With this solver, exact arithmetic, and the configuration of METHOD 3 of main.py (or the plain one), the run on a well-formed
    packing instance ends with an AssertionError although the relaxation it was about to use is strictly better than
    the previous one and proves that the incumbent is optimal. *)
Theorem C45_spurious_failure : wf_inst exSame /\ packing exSame /\ oracles_ok (line_world exSame) exSame /\
  (cc_feasible exSame 0 [124999 # 250000]%Q /\ forall y, cc_feasible exSame 0 y -> (obj exSame y <= 124999 # 250000)%Q) /\
  forall cf, cf = ex_plain \/ cf = cfg3 50 -> exists s, run (line_world exSame) exSame cf 20 = (Err AssertionError, s) /\
    a_vLB s = Fin (124999 # 250000) /\ a_xUB s = Some [1 # 2]%Q /\ exists m x z v b,
    relaxation cf s (c_limit cf) = Ok m /\ line m = Solved x z v b /\ (obj exSame x == 124999 # 250000)%Q.
Proof. exact spurious. Qed.
Print Assumptions C45_spurious_failure.

(** The instance exGood has 0.4 instead of 0.499996: the run ends normally. *)
Example C45_example :
  check_results true false [124999 # 250000]%Q (124999 # 250000) (Some [1 # 2]%Q) (Fin (1 # 2)) = Err AssertionError /\
  check_results true false [1 # 4]%Q (1 # 4) (Some [1 # 2]%Q) (Fin (1 # 2)) = Ok tt /\
  check_results true true [3 # 4]%Q (3 # 4) (Some [1 # 2]%Q) (Fin (1 # 2)) = Err AssertionError /\
  check_results false false [1]%Q 1 (Some [1]%Q) (Fin 0) = Ok tt /\
  fst (run (line_world exGood) exGood (cfg3 50) 20) = Ok Feasible.
Proof. repeat split; vm_compute; reflexivity. Qed.

(** ** C44 *)
(** Binary variables, no signal, no time limit reached.  The solver always answers; its answers may violate the rows, also the chance
    constraint, by tau <= 1e-6, and need not be optimal: its bound may exceed the value by delta in the relaxations, and by less than
    the value's modulus in the big M models.  (The evaluator's answers are the exception, see C73.)  Without merging the loop makes at most N - floor(eps N) turns,
    whatever the random choices, and raises nothing but a division by a lower bound that is zero. *)
Theorem C44_ends : forall w I cf tau delta, oracles_ok w I -> sort_spec (w_sort w) -> wf_inst I -> packing I -> eps_ok I -> (i_eps I < 1)%Q ->
  solver_ok w I tau delta -> eps_within I tau -> calm w cf -> options_ok w I cf -> tight I -> i_cont I = false -> 0 < i_n I ->
  forall fuel r s, c_merger cf = false -> i_k I - tolerated I <= fuel -> run w I cf fuel = (r, s) ->
  (r = Ok Feasible /\ a_iter s <= i_k I - tolerated I) \/ (r = Ok GapReached /\ a_iter s <= i_k I - tolerated I) \/ zero_bound r s.
Proof. exact ends_run. Qed.
Print Assumptions C44_ends.

(** No exception at all when some point of positive value satisfies every scenario. *)
Theorem C44_never_raises : forall w I cf tau delta, oracles_ok w I -> sort_spec (w_sort w) -> wf_inst I -> packing I -> eps_ok I -> (i_eps I < 1)%Q ->
  solver_ok w I tau delta -> eps_within I tau -> calm w cf -> options_ok w I cf -> tight I -> i_cont I = false -> 0 < i_n I ->
  (exists y, det_feasible I (seq 0 (i_k I)) 0 y /\ (0 < obj I y)%Q) ->
  forall fuel r s, c_merger cf = false -> i_k I - tolerated I <= fuel -> run w I cf fuel = (r, s) ->
  (r = Ok Feasible \/ r = Ok GapReached) /\ a_iter s <= i_k I - tolerated I.
Proof. exact never_raises. Qed.
Print Assumptions C44_never_raises.

(** With merging as well, every turn of the loop is completed: a run of any number of turns (fuel) ends with a verdict,
    is still going on, or divides by a lower bound that is zero. *)
Theorem C44_progress : forall w I cf tau delta, oracles_ok w I -> sort_spec (w_sort w) -> wf_inst I -> packing I -> eps_ok I -> (i_eps I < 1)%Q ->
  solver_ok w I tau delta -> eps_within I tau -> calm w cf -> options_ok w I cf -> tight I -> i_cont I = false -> 0 < i_n I ->
  forall fuel r s, run w I cf fuel = (r, s) ->
  r = Ok Feasible \/ r = Ok GapReached \/ r = Err NonTermination \/ zero_bound r s.
Proof. exact safe_run. Qed.
Print Assumptions C44_progress.

(** No exception with merging either when some point of positive value satisfies every scenario. *)
Theorem C44_progress_positive : forall w I cf tau delta, oracles_ok w I -> sort_spec (w_sort w) -> wf_inst I -> packing I -> eps_ok I -> (i_eps I < 1)%Q ->
  solver_ok w I tau delta -> eps_within I tau -> calm w cf -> options_ok w I cf -> tight I -> i_cont I = false -> 0 < i_n I ->
  (exists y, det_feasible I (seq 0 (i_k I)) 0 y /\ (0 < obj I y)%Q) ->
  forall fuel r s, run w I cf fuel = (r, s) -> r = Ok Feasible \/ r = Ok GapReached \/ r = Err NonTermination.
Proof. exact safe_pos. Qed.
Print Assumptions C44_progress_positive.

(** Without a point of positive value the division by zero does occur: the statement without it is false. *)
Theorem C44_zero_bound_refuted : calm (brute_world exZero) ex_plain /\ options_ok (brute_world exZero) exZero ex_plain /\
  c_merger ex_plain = false /\ tight exZero /\
  exists s, run (brute_world exZero) exZero ex_plain 20 = (Err ZeroDivisionError, s).
Proof. exact zero_division. Qed.
Print Assumptions C44_zero_bound_refuted.

(** The hypotheses hold for exMid (N = 4, eps = 1/4), for both refiners and the three big M methods, and the bound
    of 3 turns is attained; also for a solver that stops at a relative gap of 1e-8. *)
Example C44_example :
  (let w := brute_world exMid in oracles_ok w exMid /\ sort_spec (w_sort w) /\ wf_inst exMid /\ packing exMid /\ eps_ok exMid /\
    solver_ok w exMid 0 0) /\ (i_eps exMid < 1)%Q /\ tight exMid /\ i_cont exMid = false /\
  (det_feasible exMid (seq 0 4) 0 [0; 0; 1]%Q /\ (0 < obj exMid [0; 0; 1])%Q) /\
  (forall sp ini mth bm, sp <> SplitOther -> ini <> InitOther -> mth <> OtherM ->
    calm (brute_world exMid) (ex_cfg sp ini mth false bm) /\ options_ok (brute_world exMid) exMid (ex_cfg sp ini mth false bm)) /\
  i_k exMid - tolerated exMid = 3 /\
  (let '(r, s) := run (brute_world exMid) exMid ex_plain 3 in r = Ok Feasible /\ a_iter s = 3) /\
  (let '(r, s) := run (brute_world exMid) exMid (ex_cfg SplitCost InitCost Belotti false true) 3 in (r = Ok Feasible \/ r = Ok GapReached) /\ 1 <= a_iter s <= 3) /\
  (let w := loose_world exMid in solver_ok w exMid tol6 (1 # 100000) /\ eps_within exMid tol6 /\ calm w ex_plain /\
    brute_loose 0 (deter_model exMid [0]) = Solved [1; 0; 0]%Q [] 10 (1000000010 # 100000000) /\
    let '(r, s) := run w exMid ex_plain 3 in r = Ok Feasible /\ a_iter s = 3).
Proof. exact end_example. Qed.
