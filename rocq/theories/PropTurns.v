(** Loops without bounds on their turns (with_rounds, turns, passes, ends in TurnsSpec.v; later in StopSpec.v). *)
From Verif Require Import Base Spec Instance OptModels Initial Bounds Refine CostRefine Merge Violations BigM Adaptive AdaptiveSpec
  AdaptiveEx AdaptiveEx2 AdaptiveCycle CycleEx Ex ResultText StopSpec TurnsSpec TurnsFacts TurnsRuns.

(** ** C89 *)

(** The functions with a bound on the number of turns compute what the while loops do: the main loop and the one of the random refiner. *)
Theorem C89_main_loop : forall w I cf s r s', r <> Err NonTermination -> (exists fuel, main_loop w I cf fuel s = (r, s')) <-> turns w I cf s r s'.
Proof. exact main_while. Qed.
Print Assumptions C89_main_loop.
Theorem C89_random_loop : forall perm flags inf mu st t o, o <> Err NonTermination ->
  (exists n, random_loop n perm flags inf mu st t = o) <-> passes perm flags inf mu st t o.
Proof. exact random_while. Qed.
Print Assumptions C89_random_loop.

(** Larger bounds change nothing, or continue a run that was cut. *)
Theorem C89_more : forall w I cf n n', n <= n' -> forall fuel fuel', fuel <= fuel' ->
  run w I (with_rounds cf n) fuel = run w I (with_rounds cf n') fuel' \/
  (fst (run w I (with_rounds cf n) fuel) = Err NonTermination /\ later fuel' (snd (run w I (with_rounds cf n) fuel)) (snd (run w I (with_rounds cf n') fuel'))).
Proof. exact run_more. Qed.
Print Assumptions C89_more.

(** The result of the program does not depend on them. *)
Theorem C89_unique : forall w I cf r1 s1 r2 s2, ends w I cf r1 s1 -> ends w I cf r2 s2 -> r1 = r2 /\ s1 = s2.
Proof. exact ends_unique. Qed.
Print Assumptions C89_unique.

(** Neither do the files written. *)
Theorem C89_files : forall repr w I name path ipath info METHOD fuel fuel' n n', fuel <= fuel' -> n <= n' ->
  main_text repr w I name path ipath info fuel n METHOD = main_text repr w I name path ipath info fuel' n' METHOD \/
  main_text repr w I name path ipath info fuel n METHOD = (Err NonTermination, []).
Proof. exact main_more. Qed.
Print Assumptions C89_files.

(** Without merging the program ends (C44); with merging, on an instance with a trap, it does not (C60). *)
Theorem C89_ends : forall w I cf tau delta, oracles_ok w I -> sort_spec (w_sort w) -> wf_inst I -> packing I -> eps_ok I -> (i_eps I < 1)%Q ->
  solver_ok w I tau delta -> eps_within I tau -> calm w cf -> options_ok w I cf -> tight I -> i_cont I = false -> 0 < i_n I -> c_merger cf = false ->
  exists r s, ends w I cf r s /\ (r = Ok Feasible \/ r = Ok GapReached \/ zero_bound r s).
Proof. exact program_ends. Qed.
Print Assumptions C89_ends.
Theorem C89_endless : forall w I cf, oracles_ok w I -> sort_spec (w_sort w) -> wf_inst I -> packing I -> eps_ok I -> (i_eps I < 1)%Q ->
  solver_ok w I 0 0 -> calm w cf -> options_ok w I cf -> tight I -> i_cont I = false -> 0 < i_n I ->
  forall V, trap I V (c_gap cf) -> c_merger cf = true -> (0 <= c_gap cf)%Q -> forall r s, ~ ends w I cf r s.
Proof. exact program_endless. Qed.
Print Assumptions C89_endless.

(** A program that ends after three turns, one that never ends, and the rows logged when the first is cut. *)
Example C89_small :
  (exists s, ends (brute_world exMid) exMid (ex_cfg SplitCost InitCost Belotti true true) (Ok Feasible) s /\ a_vLB s = Fin 5 /\ a_vUB s = Fin 5 /\ a_iter s = 3) /\
  (forall r s, ~ ends (brute_world exC) exC (ex_cfg SplitCost InitCost Belotti true true) r s) /\
  map (fun f => fst (run (brute_world exMid) exMid (ex_cfg SplitCost InitCost Belotti true true) f)) [0; 2; 3; 9] =
    [Err NonTermination; Err NonTermination; Ok Feasible; Ok Feasible] /\
  map (fun f => length (a_log (snd (run (brute_world exMid) exMid (ex_cfg SplitCost InitCost Belotti true true) f)))) [0; 1; 2; 3; 9] = [0; 2; 4; 5; 5].
Proof. exact turns_example. Qed.
