(** Additional signals (with_intr, later in StopSpec.v). *)
From Verif Require Import Base Spec Instance OptModels Initial Adaptive AdaptiveSpec AdaptiveEx AdaptiveEx2 Ex ResultText StopSpec StopRuns StopEx.

(** ** C88 *)

(** Signals can only cut AdaptivePartitioner.solve short: it behaves as without them, or raises KeyboardInterrupt in a state from which
    the bounds, the iteration number and the log would only have gone on.  Whatever the solvers answer. *)
Theorem C88_solve : forall I cf w sig, (forall t, w_intr w t = true -> sig t = true) -> forall fuel num s, a_iter s <= 1 ->
  solve (with_intr w sig) I cf fuel num s = solve w I cf fuel num s \/
  (fst (solve (with_intr w sig) I cf fuel num s) = Err KeyboardInterrupt /\
   later fuel (snd (solve (with_intr w sig) I cf fuel num s)) (snd (solve w I cf fuel num s))).
Proof. exact solve_stopped. Qed.
Print Assumptions C88_solve.

(** The same for construction and solution. *)
Theorem C88_run : forall I cf w sig, (forall t, w_intr w t = true -> sig t = true) -> forall fuel,
  run (with_intr w sig) I cf fuel = run w I cf fuel \/
  fst (construct (with_intr w sig) I cf (ast0 I)) = Err KeyboardInterrupt \/
  (fst (run (with_intr w sig) I cf fuel) = Err KeyboardInterrupt /\ later fuel (snd (run (with_intr w sig) I cf fuel)) (snd (run w I cf fuel))).
Proof. exact run_stopped. Qed.
Print Assumptions C88_run.

(** The iteration file of the interrupted run is the beginning of the one of the complete run. *)
Theorem C88_file : forall I cf w sig fuel, (forall t, w_intr w t = true -> sig t = true) ->
  exists t, iteration_file (snd (run w I cf fuel)) = iteration_file (snd (run (with_intr w sig) I cf fuel)) ++ t.
Proof. exact iteration_stopped. Qed.
Print Assumptions C88_file.

(** main.py, methods 3 and 4: with the signals it does the same, writes nothing, or writes the beginning of the iteration file (main_text in
    ResultText.v: the files written and their texts). *)
Theorem C88_main : forall repr w sig I name path ipath (info : bool) fuel rfuel METHOD, (forall t, w_intr w t = true -> sig t = true) -> In METHOD [3; 4]%Z ->
  let o := main_text repr w I name path ipath info fuel rfuel METHOD in
  let o' := main_text repr (with_intr w sig) I name path ipath info fuel rfuel METHOD in
  o' = o \/ snd o' = [] \/ exists row' t', o' = (Ok tt, (path, row') :: if info then [(ipath, t')] else []) /\
    (snd o = [] \/ exists row t, o = (Ok tt, (path, row) :: if info then [(ipath, t' ++ t)] else [])).
Proof. exact main_stopped. Qed.
Print Assumptions C88_main.

(** A run cut at eight times: outcome, rows of the log, bounds and iteration number. *)
Example C88_small : map seen_until [10; 20; 30; 40; 70; 80; 110; 120] =
  [(Err KeyboardInterrupt, 0, NInf, PInf, 0); (Err KeyboardInterrupt, 0, NInf, Fin 10, 0); (Err KeyboardInterrupt, 1, NInf, Fin 10, 1);
   (Err KeyboardInterrupt, 2, Fin 5, Fin 10, 1); (Err KeyboardInterrupt, 2, Fin 5, Fin 10, 2); (Err KeyboardInterrupt, 4, Fin 5, Fin 10, 2);
   (Err KeyboardInterrupt, 4, Fin 5, Fin 10, 3); (Ok Feasible, 5, Fin 5, Fin 5, 3)] /\
  run_until 120 = run (brute_world exMid) exMid (ex_cfg SplitCost InitCost Belotti true true) 9.
Proof. exact stop_example. Qed.
