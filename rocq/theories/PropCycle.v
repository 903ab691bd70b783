(** Properties of endless runs: C60. *)
From Verif Require Import Base Spec Instance OptModels Initial Bounds Refine CostRefine Merge Violations BigM Adaptive AdaptiveSpec
  AdaptiveEx AdaptiveEx2 AdaptiveCycle CycleEx.

(** ** C60 *)
(** Binary variables, exact solver, no signal and no time limit: with merging, a run on an instance with a trap is never over,
    whatever the number of turns granted, the random choices, the ties and the options. *)
Theorem C60_never_ends : forall w I cf, oracles_ok w I -> sort_spec (w_sort w) -> wf_inst I -> packing I -> eps_ok I -> (i_eps I < 1)%Q ->
  solver_ok w I 0 0 -> calm w cf -> options_ok w I cf -> tight I -> i_cont I = false -> 0 < i_n I ->
  forall V, trap I V (c_gap cf) -> c_merger cf = true -> (0 <= c_gap cf)%Q ->
  forall fuel, exists s, run w I cf fuel = (Err NonTermination, s).
Proof. exact run_stuck. Qed.
Print Assumptions C60_never_ends.

(** Such an instance exists: "with merging, every run ends" is false, for every exact solver and every gap tolerance below 100 %. *)
Theorem C60_ends_with_merging_refuted : forall w cf, oracles_ok w exC -> sort_spec (w_sort w) -> solver_ok w exC 0 0 -> calm w cf -> options_ok w exC cf ->
  c_merger cf = true -> (0 <= c_gap cf)%Q -> (c_gap cf < 1)%Q -> forall fuel, exists s, run w exC cf fuel = (Err NonTermination, s).
Proof. exact never_ends_everywhere. Qed.
Print Assumptions C60_ends_with_merging_refuted.

(** The hypotheses hold for every choice of refiner, first partition and big M; the partitions alternate with bounds 1 and 2;
    the optimum is 1, and without merging the run finds it in three turns. *)
Example C60_example :
  (forall sp ini mth bm, sp <> SplitOther -> ini <> InitOther -> mth <> OtherM -> let cf := ex_cfg sp ini mth true bm in let w := brute_world exC in
    oracles_ok w exC /\ sort_spec (w_sort w) /\ solver_ok w exC 0 0 /\ calm w cf /\ options_ok w exC cf /\ c_merger cf = true /\ (0 <= c_gap cf)%Q /\ (c_gap cf < 1)%Q) /\
  map (fun n => show_turn (head_state (brute_world exC) exC (ex_cfg SplitCost InitCost Belotti true true) n)) [0; 1; 2; 3; 4] =
    [Some ([[0; 2]; [1; 3]], Fin 1, Fin 2, false); Some ([[0; 2; 3]; [1]], Fin 1, Fin 2, true); Some ([[2]; [1; 0; 3]], Fin 1, Fin 2, true);
     Some ([[2; 0; 3]; [1]], Fin 1, Fin 2, true); Some ([[2]; [1; 0; 3]], Fin 1, Fin 2, true)] /\
  (cc_feasible exC 0 [1; 0; 0]%Q /\ obj exC [1; 0; 0]%Q == 1 /\ upper_bound exC 1)%Q /\
  (let '(r, s) := run (brute_world exC) exC (ex_cfg SplitCost InitCost Belotti false true) 3 in r = Ok Feasible /\ a_vUB s = Fin 1).
Proof. exact cycle_example. Qed.
