(** The models handed to the solver are well formed (data_row, cstr_fits, well_formed in FormSpec.v, models_solved in SolveSpec.v). *)
From Verif Require Import Base Spec Instance OptModels Initial Adaptive AdaptiveSpec AdaptiveEx AdaptiveEx2 Ex Milp MilpEx
  SolveSpec FormSpec FormRuns FormEx.

(** ** C86 *)

(** Every model of a run of AdaptivePartitioner, with or without merging, whatever the answers of the solver, the signals, the clock
    and the bound on the turns. *)
Theorem C86_run : forall w I cf fuel, oracles_ok w I -> wf_inst I -> (0 <= i_eps I)%Q ->
  exists L, models_solved w (fun w => run w I cf fuel) L /\ Forall (fun q => well_formed I (snd q)) L.
Proof. exact run_formed. Qed.
Print Assumptions C86_run.

(** MilpSolver. *)
Theorem C86_milp : forall w I cf use method, wf_inst I -> (0 <= c_gap cf)%Q ->
  exists L, models_solved w (fun w => milp_run w I cf use method) L /\ Forall (fun q => well_formed I (snd q)) L.
Proof. exact milp_formed. Qed.
Print Assumptions C86_milp.

(** The answers to other models do not matter. *)
Theorem C86_depends : forall w I cf fuel f, oracles_ok w I -> wf_inst I -> (0 <= i_eps I)%Q ->
  (forall t q, well_formed I q -> f t q = w_solve w t q) -> run (with_solve w f) I cf fuel = run w I cf fuel.
Proof. exact run_depends. Qed.
Print Assumptions C86_depends.
Theorem C86_milp_depends : forall w I cf use method f, wf_inst I -> (0 <= c_gap cf)%Q ->
  (forall t q, well_formed I q -> f t q = w_solve w t q) -> milp_run (with_solve w f) I cf use method = milp_run w I cf use method.
Proof. exact milp_depends. Qed.
Print Assumptions C86_milp_depends.

(** Models of each kind (costs of subsets, lower bounds, knapsacks, relaxations) in three runs; models that are not well formed: a scenario
    outside the instance, a negative time limit, an indicator outside the model. *)
Example C86_example : let w := brute_world exMid in
  kinds w (fun w => run w exMid ex_plain 9) = [6; 2; 0; 2] /\
  kinds w (fun w => run w exMid (ex_cfg SplitCost InitCost Belotti false true) 9) = [10; 2; 8; 2] /\
  kinds w (fun w => milp_run w exMid ex_plain true Belotti) = [4; 0; 4; 1] /\
  well_formed exMid (deter_model exMid [0; 2]) /\ ~ well_formed exMid (deter_model exMid [4]) /\
  (forall m, m_time m = Some (-1)%Q -> ~ well_formed exMid m) /\
  (forall m, In (CInd (m_nz m) (i_c exMid) 1) (m_cstrs m) -> ~ well_formed exMid m).
Proof. exact form_example. Qed.
