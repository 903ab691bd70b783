(** End of a run with continuous variables: C69. *)
From Verif Require Import Base BaseFacts Spec Instance OptModels Initial Bounds Refine CostRefine Merge Violations ViolTable BigM Adaptive AdaptiveSpec NearSpec
  AdaptiveEnd NearFacts Mip AdaptiveEx AdaptiveEx2 ContEx.

(** Exact solver, no signal, no time limit reached, and feasibility within 1e-6 brings less than 1e-3.  Without merging the loop makes at most
    N - floor(eps N) turns and raises nothing but the division by a lower bound that is zero and the failure of the sanity check because
    the new point is close to the previous one. *)
Theorem C69_ends : forall w I cf, oracles_ok w I -> sort_spec (w_sort w) -> wf_inst I -> packing I -> eps_ok I -> (i_eps I < 1)%Q ->
  solver_ok w I 0 0 -> calm w cf -> options_ok w I cf -> exact_if_cont w I -> 0 < i_n I -> near I ->
  forall fuel r s, c_merger cf = false -> i_k I - tolerated I <= fuel -> run w I cf fuel = (r, s) ->
  (r = Ok Feasible /\ a_iter s <= i_k I - tolerated I) \/ (r = Ok GapReached /\ a_iter s <= i_k I - tolerated I) \/
  zero_bound r s \/ exists e, r = Err e /\ close_failed w I cf e s.
Proof. exact cont_ends. Qed.
Print Assumptions C69_ends.

(** Conditions on the data only: a positive objective, and right-hand sides of at least a thousandth of the sum of its coefficients. *)
Theorem C69_never_raises : forall w I cf, oracles_ok w I -> sort_spec (w_sort w) -> wf_inst I -> packing I -> eps_ok I -> (i_eps I < 1)%Q ->
  solver_ok w I 0 0 -> calm w cf -> options_ok w I cf -> exact_if_cont w I -> 0 < i_n I ->
  i_cont I = true -> (0 < qsum (i_c I))%Q -> (forall s i, s < i_k I -> i < i_m I -> (qsum (i_c I) <= 1000 * rhs I s i)%Q) ->
  forall fuel r s, c_merger cf = false -> i_k I - tolerated I <= fuel -> run w I cf fuel = (r, s) ->
  ((r = Ok Feasible \/ r = Ok GapReached) /\ a_iter s <= i_k I - tolerated I) \/ exists e, r = Err e /\ close_failed w I cf e s.
Proof. exact cont_never_raises. Qed.
Print Assumptions C69_never_raises.

(** That failure does occur under these hypotheses: the statement without it is false. *)
Theorem C69_close_refuted :
  (let w := mip_world exSmall in oracles_ok w exSmall /\ sort_spec (w_sort w) /\ wf_inst exSmall /\ packing exSmall /\ eps_ok exSmall /\ solver_ok w exSmall 0 0 /\
    exact_if_cont w exSmall) /\ (i_eps exSmall < 1)%Q /\ i_cont exSmall = true /\ (0 < qsum (i_c exSmall))%Q /\
  (forall s i, s < i_k exSmall -> i < i_m exSmall -> (qsum (i_c exSmall) <= 1000 * rhs exSmall s i)%Q) /\
  calm (mip_world exSmall) ex_plain /\ options_ok (mip_world exSmall) exSmall ex_plain /\ c_merger ex_plain = false /\
  exists s, run (mip_world exSmall) exSmall ex_plain (i_k exSmall) = (Err AssertionError, s) /\ close_failed (mip_world exSmall) exSmall ex_plain AssertionError s.
Proof. exact close_witness. Qed.
Print Assumptions C69_close_refuted.

(** With merging as well, every turn of the loop is completed, divides by a lower bound that is zero, or fails the sanity check because
    the new point is close to the previous one. *)
Theorem C69_progress : forall w I cf, oracles_ok w I -> sort_spec (w_sort w) -> wf_inst I -> packing I -> eps_ok I -> (i_eps I < 1)%Q ->
  solver_ok w I 0 0 -> calm w cf -> options_ok w I cf -> near I -> exact_if_cont w I -> 0 < i_n I ->
  forall fuel r s, run w I cf fuel = (r, s) ->
  r = Ok Feasible \/ r = Ok GapReached \/ r = Err NonTermination \/ zero_bound r s \/ exists e, r = Err e /\ close_failed w I cf e s.
Proof. exact cont_progress. Qed.
Print Assumptions C69_progress.

(** Under the conditions on the data only the latter remains. *)
Theorem C69_progress_positive : forall w I cf, oracles_ok w I -> sort_spec (w_sort w) -> wf_inst I -> packing I -> eps_ok I -> (i_eps I < 1)%Q ->
  solver_ok w I 0 0 -> calm w cf -> options_ok w I cf -> exact_if_cont w I -> 0 < i_n I ->
  i_cont I = true -> (0 < qsum (i_c I))%Q -> (forall s i, s < i_k I -> i < i_m I -> (qsum (i_c I) <= 1000 * rhs I s i)%Q) ->
  forall fuel r s, run w I cf fuel = (r, s) ->
  r = Ok Feasible \/ r = Ok GapReached \/ r = Err NonTermination \/ exists e, r = Err e /\ close_failed w I cf e s.
Proof. exact cont_progress_positive. Qed.
Print Assumptions C69_progress_positive.

(** The hypotheses on the solver can be met: elimination of the variables answers every model exactly. *)
Theorem C69_solver : forall m, outcome_exact m (mip m).
Proof. exact mip_exact. Qed.
Print Assumptions C69_solver.

(** The hypotheses hold for exPair (two variables, two constraints, N = 4, eps = 1/4). *)
Example C69_example :
  (let w := mip_world exPair in oracles_ok w exPair /\ sort_spec (w_sort w) /\ wf_inst exPair /\ packing exPair /\ eps_ok exPair /\ solver_ok w exPair 0 0 /\
    exact_if_cont w exPair) /\ (i_eps exPair < 1)%Q /\ i_cont exPair = true /\ (0 < qsum (i_c exPair))%Q /\
  (forall s i, s < i_k exPair -> i < i_m exPair -> (qsum (i_c exPair) <= 1000 * rhs exPair s i)%Q) /\ near exPair /\
  (forall sp ini mth merger bm, sp <> SplitOther -> ini <> InitOther -> mth <> OtherM ->
    calm (mip_world exPair) (ex_cfg sp ini mth merger bm) /\ options_ok (mip_world exPair) exPair (ex_cfg sp ini mth merger bm)) /\
  (let '(r, s) := run (mip_world exPair) exPair ex_plain 3 in r = Ok Feasible /\ a_iter s = 1) /\
  (let '(r, s) := run (mip_world exPair) exPair (ex_cfg SplitCost InitCost Belotti false true) 3 in
    r = Ok Feasible /\ a_iter s = 2 /\ a_vUB s = Fin (1794 # 529)) /\
  (let '(r, s) := run (mip_world exPair) exPair (ex_cfg SplitCost InitCost Belotti true true) 3 in r = Ok Feasible /\ a_iter s = 2).
Proof. exact cont_example. Qed.
