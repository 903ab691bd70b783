(** Property C59: the scenarios of the lower-bound problem. *)
From Verif Require Import Base BaseFacts Spec Instance OptModels Initial Bounds Refine CostRefine Merge Adaptive AdaptiveSpec AdaptiveWp
  AdaptiveCount AdaptiveEx CountEx BruteForce Ex.

(** ** C59 *)
(** Every state at the head of the loop has a list of points. *)
Theorem C59_trace : forall w I cf, (forall r, (0 <= w_norm w r)%Q) -> argsort_ok (w_argsort w) -> 0 < i_k I ->
  forall s, clock_mono w -> head_reach w I cf s -> exists xs, head_trace w I cf xs s.
Proof. exact trace_exists. Qed.
Print Assumptions C59_trace.

Theorem C59_counter : forall w I cf, (forall r, (0 <= w_norm w r)%Q) -> argsort_ok (w_argsort w) -> 0 < i_k I ->
  forall xs s, clock_mono w -> head_trace w I cf xs s ->
  forall t, t < i_k I -> (nth t (lb_counter (a_lb s)) 0 == Qn (times_ok I xs t))%Q.
Proof. exact counter_head. Qed.
Print Assumptions C59_counter.

Theorem C59_projection : forall w I cf, (forall r, (0 <= w_norm w r)%Q) -> argsort_ok (w_argsort w) -> 0 < i_k I ->
  forall xs s x s1, clock_mono w -> head_trace w I cf xs s -> bound_phase w I cf s = (Ok (inr (Some x)), s1) ->
  projection_ok (w_norm w) I (c_proj cf) (x :: xs) x (lb_scen (a_lb s1)).
Proof. exact projection_step. Qed.
Print Assumptions C59_projection.

(** A scenario violated by 5e-4 is preferred to a satisfied one. *)
Theorem C59_satisfied_first_refuted : exists sel, (do idx <- index_scenarios norm1 exTol ProjRescaled [] [1]%Q ;;
    selected_scenarios argsort_ref (uniform (i_k exTol)) (i_eps exTol) (i_k exTol) idx) = Ok (Some sel) /\
  In 0 sel /\ ~ sat exTol tol6 [1]%Q 0 /\ ~ In 1 sel /\ sat exTol tol6 [1]%Q 1.
Proof. exact tolerance_selection. Qed.
Print Assumptions C59_satisfied_first_refuted.

(** Points, counters and selected scenarios after 0, 1 and 2 turns. *)
Example C59_example : map (count_show ProjCounter) [0; 1; 2] =
  [Some ([], [0; 0; 0; 0; 0; 0; 0; 0; 0]%Q, [0]);
   Some ([[1; 1; 1; 0]]%Q, [0; 1; 1; 0; 0; 1; 1; 0; 1]%Q, [1; 2; 5; 6; 8; 0]);
   Some ([[1; 0; 1; 1]; [1; 1; 1; 0]]%Q, [1; 1; 2; 1; 0; 1; 2; 0; 2]%Q, [2; 6; 8; 0; 1; 3])] /\
  count_show ProjRescaled 2 = Some ([[1; 0; 1; 1]; [1; 1; 1; 0]]%Q, [1; 1; 2; 1; 0; 1; 2; 0; 2]%Q, [0; 2; 3; 6; 8; 7]).
Proof. vm_compute. split; reflexivity. Qed.
Example C59_trace_example : forall p n xs s, trace_state exS_world exS (ex_proj p) n = Some (xs, s) -> head_trace exS_world exS (ex_proj p) xs s.
Proof. intros p. exact (trace_state_ok exS_world exS (ex_proj p)). Qed.
