(** Runs with signals and a time limit: C82. *)
From Verif Require Import Base Spec Instance OptModels Initial Bounds Refine CostRefine Merge Violations Adaptive AdaptiveSpec AdaptiveBounds NearSpec
  AdaptiveEx AdaptiveEx2 LogEx OutsideSpec OutsideFacts OutsideEx.

(** ** C82 *)
(** Every run, with any clock, any signal and any time limit: a regular end, a cycle of the merging, the division by a zero lower bound, the
    sanity check of the relaxation for continuous variables, or an exception that comes from outside. *)
Theorem C82_outcomes : forall w I cf tau delta, oracles_ok w I -> sort_spec (w_sort w) -> wf_inst I -> packing I -> eps_ok I ->
  (i_eps I < 1)%Q -> solver_ok w I tau delta -> eps_within I tau -> (i_cont I = true -> tau = 0%Q) -> steady w I -> options_ok w I cf -> near I -> 0 < i_n I ->
  forall fuel r s, run w I cf fuel = (r, s) ->
    (exists v, r = Ok v /\ verdict_ok w cf v) \/ r = Err NonTermination \/ zero_bound r s \/
    exists e, r = Err e /\ (close_failed w I cf e s \/ from_outside w cf e).
Proof. exact outcomes. Qed.
Print Assumptions C82_outcomes.

(** Without merging the number of iterations is bounded, whatever happens outside. *)
Theorem C82_ends : forall w I cf tau delta, oracles_ok w I -> sort_spec (w_sort w) -> wf_inst I -> packing I -> eps_ok I ->
  (i_eps I < 1)%Q -> solver_ok w I tau delta -> eps_within I tau -> (i_cont I = true -> tau = 0%Q) -> steady w I -> options_ok w I cf -> near I -> 0 < i_n I ->
  forall fuel r s, c_merger cf = false -> i_k I - tolerated I <= fuel -> run w I cf fuel = (r, s) ->
    (exists v, r = Ok v /\ verdict_ok w cf v /\ a_iter s <= i_k I - tolerated I) \/ zero_bound r s \/
    exists e, r = Err e /\ (close_failed w I cf e s \/ from_outside w cf e).
Proof. exact outcomes_end. Qed.
Print Assumptions C82_ends.

(** When a point of positive value satisfies all scenarios, the division does not fail. *)
Theorem C82_positive : forall w I cf tau delta, oracles_ok w I -> sort_spec (w_sort w) -> wf_inst I -> packing I -> eps_ok I ->
  (i_eps I < 1)%Q -> solver_ok w I tau delta -> eps_within I tau -> (i_cont I = true -> tau = 0%Q) -> steady w I -> options_ok w I cf -> near I -> 0 < i_n I ->
  (exists y, det_feasible I (seq 0 (i_k I)) 0 y /\ (0 < obj I y)%Q) ->
  forall fuel r s, run w I cf fuel = (r, s) ->
    (exists v, r = Ok v /\ verdict_ok w cf v) \/ r = Err NonTermination \/ exists e, r = Err e /\ (close_failed w I cf e s \/ from_outside w cf e).
Proof. exact outcomes_pos. Qed.
Print Assumptions C82_positive.
Theorem C82_positive_ends : forall w I cf tau delta, oracles_ok w I -> sort_spec (w_sort w) -> wf_inst I -> packing I -> eps_ok I ->
  (i_eps I < 1)%Q -> solver_ok w I tau delta -> eps_within I tau -> (i_cont I = true -> tau = 0%Q) -> steady w I -> options_ok w I cf -> near I -> 0 < i_n I ->
  (exists y, det_feasible I (seq 0 (i_k I)) 0 y /\ (0 < obj I y)%Q) ->
  forall fuel r s, c_merger cf = false -> i_k I - tolerated I <= fuel -> run w I cf fuel = (r, s) ->
    (exists v, r = Ok v /\ verdict_ok w cf v /\ a_iter s <= i_k I - tolerated I) \/
    exists e, r = Err e /\ (close_failed w I cf e s \/ from_outside w cf e).
Proof. exact outcomes_pos_end. Qed.
Print Assumptions C82_positive_ends.

(** One second per call and a solver that gives up on models with less than lim seconds: the hypotheses hold for every time limit, every lim
    and every call of the signal. *)
Example C82_hypotheses : forall lim n limit, let w := hasty exS lim n in
  oracles_ok w exS /\ sort_spec (w_sort w) /\ wf_inst exS /\ packing exS /\ eps_ok exS /\ solver_ok w exS 0 0 /\ near exS /\ steady w exS /\
  options_ok w exS (with_limit limit ex_plain) /\ (exists y, det_feasible exS (seq 0 (i_k exS)) 0 y /\ (0 < obj exS y)%Q).
Proof. exact hasty_hyps. Qed.
(** All outcomes occur: optimal, time limit, Gurobi's error for a negative limit, a relaxation without a point, a signal. *)
Example C82_example :
  map (fun l => fst (hasty_run l 0 None)) [150; 70; 60]%Q = [Ok Feasible; Ok TimeUp; Err GurobiError] /\
  fst (hasty_run 70 10 None) = Err AttributeError /\ fst (hasty_run 150 0 (Some 63)) = Err KeyboardInterrupt /\
  i_k exS - tolerated exS = 6.
Proof. exact hasty_outcomes. Qed.
