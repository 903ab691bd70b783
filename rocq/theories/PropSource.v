(** Sources of nondeterminism (other_sources, uses_random, uses_splits, uses_sort in SourceSpec.v). *)
From Coq Require Import ZArith Permutation.
From Verif Require Import Base Spec Instance OptModels Initial Adaptive AdaptiveSpec AdaptiveEx AdaptiveEx2 Ex Milp ResultText SourceSpec SourceFacts SourceEx.

(** ** C91 *)

(** Random choices matter only with the random refiner or the random initial partition, the split models only with the cost refiner, and
    the order in which std::sort leaves ties only with Song's big M's.  The whole final state is the same otherwise. *)
Theorem C91_run : forall w I cf perm acc sort, (uses_random cf -> perm = w_perm w) -> (uses_splits cf -> acc = w_acc w) ->
  (uses_sort cf -> sort = w_sort w) -> forall fuel, run (other_sources w perm acc sort) I cf fuel = run w I cf fuel.
Proof. exact run_same. Qed.
Print Assumptions C91_run.

(** The same for the benchmark solved as one model. *)
Theorem C91_milp : forall w I cf perm acc sort um meth, (um = true -> meth = Song -> sort = w_sort w) ->
  milp_run (other_sources w perm acc sort) I cf um meth = milp_run w I cf um meth.
Proof. exact milp_same. Qed.
Print Assumptions C91_milp.

(** The files written by the program for every method number. *)
Theorem C91_main : forall repr w I name path ipath info fuel rfuel METHOD perm acc sort,
  (METHOD = 3%Z -> perm = w_perm w) -> (METHOD = 4%Z -> acc = w_acc w) -> (METHOD = 1%Z -> sort = w_sort w) ->
  main_text repr (other_sources w perm acc sort) I name path ipath info fuel rfuel METHOD = main_text repr w I name path ipath info fuel rfuel METHOD.
Proof. exact main_same. Qed.
Print Assumptions C91_main.

(** Random choices do change the number of iterations and of rows of the log. *)
Theorem C91_random_refuted : ~ (forall w I cf perm perm' fuel,
  (forall t n, Permutation (perm t n) (seq 0 n)) -> (forall t n, Permutation (perm' t n) (seq 0 n)) ->
  let s := snd (run (other_sources w perm (w_acc w) (w_sort w)) I cf fuel) in
  let s' := snd (run (other_sources w perm' (w_acc w) (w_sort w)) I cf fuel) in
  a_iter s = a_iter s' /\ length (a_log s) = length (a_log s')).
Proof. exact random_refuted. Qed.
Print Assumptions C91_random_refuted.

(** Three random runs; a run with the cost refiner under other random choices. *)
Example C91_small :
  map (fun k => odd_run k exS random_cfg) [0; 1; 2] =
    [(Ok Feasible, 5, Fin 14, Fin 14, 3, [[0; 8]; [1]; [2; 6]; [3]; [4]; [7]; [5]]);
     (Ok Feasible, 5, Fin 14, Fin 14, 3, [[5; 0]; [2; 6]; [7]; [4; 8]; [3]; [1]]);
     (Ok Feasible, 3, Fin 14, Fin 14, 2, [[2; 6; 1]; [3]; [4; 8]; [5; 0]; [7]])] /\
  run (other_sources (brute_world exS) (rotated 2) (w_acc (brute_world exS)) sorted_back) exS (ex_cfg SplitCost InitCost Belotti false true) 20 =
    run (brute_world exS) exS (ex_cfg SplitCost InitCost Belotti false true) 20.
Proof. exact source_example. Qed.
