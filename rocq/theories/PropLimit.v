(** Runs with different time limits (quick, limited in LimitSpec.v; later in StopSpec.v). *)
From Verif Require Import Base Spec Instance OptModels Initial Adaptive AdaptiveSpec AdaptiveEx AdaptiveEx2 Ex ResultText StopSpec LimitSpec LimitFacts LimitEx.

(** ** C90 *)

(** With a larger time limit the run is the same, or the shorter run was stopped (by the time tests, or by Gurobi refusing a negative limit)
    in a state that the longer one passes.  The answers of the solver may be wrong, but do not depend on the limit. *)
Theorem C90_run : forall w I cf q q', (q <= q')%Q -> clock_mono w -> quick w -> forall fuel,
  run w I (limited cf q) fuel = run w I (limited cf q') fuel \/
  ((fst (run w I (limited cf q) fuel) = Ok TimeUp \/ fst (run w I (limited cf q) fuel) = Err GurobiError) /\
   later fuel (snd (run w I (limited cf q) fuel)) (snd (run w I (limited cf q') fuel))).
Proof. exact run_limit. Qed.
Print Assumptions C90_run.

(** The iteration file of the shorter run is the beginning of the one of the longer. *)
Theorem C90_file : forall w I cf q q', (q <= q')%Q -> clock_mono w -> quick w -> forall fuel,
  exists t, iteration_file (snd (run w I (limited cf q') fuel)) = iteration_file (snd (run w I (limited cf q) fuel)) ++ t.
Proof. exact iteration_limit. Qed.
Print Assumptions C90_file.

(** This is false for a right solver whose answers depend on the limit. *)
Theorem C90_slow_refuted : ~ (forall w I cf q q' fuel, (q <= q')%Q -> clock_mono w -> solver_ok w I 0 0 ->
  exists t, iteration_file (snd (run w I (limited cf q') fuel)) = iteration_file (snd (run w I (limited cf q) fuel)) ++ t).
Proof. exact slow_refuted. Qed.
Print Assumptions C90_slow_refuted.

(** One run with seven limits, one second per call: outcome, rows of the log, bounds and iteration number. *)
Example C90_small : quick (ticking exS no_hurry) /\ clock_mono (ticking exS no_hurry) /\
  map (timed_seen no_hurry) [20; 30; 60; 70; 80; 100; 150]%Q =
    [(Ok TimeUp, 0, Fin 14, PInf, 1); (Ok TimeUp, 2, Fin 14, Fin 19, 1); (Err GurobiError, 2, Fin 14, Fin 19, 2);
     (Ok TimeUp, 3, Fin 14, Fin 18, 2); (Ok TimeUp, 4, Fin 14, Fin 18, 2); (Ok TimeUp, 4, Fin 14, Fin 18, 3); (Ok Feasible, 5, Fin 14, Fin 14, 3)].
Proof. exact limit_example. Qed.
