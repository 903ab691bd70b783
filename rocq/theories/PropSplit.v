(** Properties C65 and C66: the split model computes the best split, and the refinement by cost splits the right subset. *)
From Verif Require Import Base Spec OptModels Refine RefineFacts CostRefine CostRefineFacts SplitSpec SplitDual SplitSelect SplitEx.

(** ** C65 *)
(** The values that the split model can reach: no hypothesis on the data. *)
Theorem C65_threshold : forall I scen inf, wf_inst I -> Forall (fun s => s < i_k I) scen -> NoDup scen -> forall V,
  (exists p, acc_feasible I scen inf p /\ (ap_alpha p <= V)%Q) <-> (exists l r, admissible scen inf l r /\ split_within I l r V).
Proof. exact model_value. Qed.
Print Assumptions C65_threshold.

(** Every admissible split is read back from some solution of the model whose objective is the cost of the split. *)
Theorem C65_every_split : forall I scen inf l r V, wf_inst I -> Forall (fun s => s < i_k I) scen -> NoDup scen ->
  admissible scen inf l r -> split_within I l r V ->
  exists p l' r', acc_feasible I scen inf p /\ ap_alpha p = V /\ acc_subsets scen p = (l', r') /\ Permutation l' l /\ Permutation r' r.
Proof. exact split_any. Qed.
Print Assumptions C65_every_split.

(** An optimal solution exists. *)
Theorem C65_optimum : forall I scen inf, wf_inst I -> acc_query I scen inf ->
  (forall l r, admissible scen inf l r -> exists x, relax_sat I l x \/ relax_sat I r x) -> exists p, acc_optimal I scen inf p.
Proof. exact optimal_exists. Qed.
Print Assumptions C65_optimum.

(** It gives a split of least relaxed cost, and its objective is that cost. *)
Theorem C65_best : forall I scen inf p l r, wf_inst I -> acc_query I scen inf ->
  (forall l r, admissible scen inf l r -> exists x, relax_sat I l x \/ relax_sat I r x) ->
  acc_optimal I scen inf p -> acc_subsets scen p = (l, r) -> best_split I scen inf l r (ap_alpha p).
Proof. exact optimal_best. Qed.
Print Assumptions C65_best.

(** For packing data some point always satisfies both sides, and a solver that answers every query exactly exists. *)
Theorem C65_packing : forall I scen inf, packing I -> forall l r, admissible scen inf l r -> exists x, relax_sat I l x \/ relax_sat I r x.
Proof. exact packing_relax. Qed.
Print Assumptions C65_packing.
Theorem C65_solver : forall I, wf_inst I -> packing I -> exists acc, acc_exact I acc.
Proof. exact acc_exact_exists. Qed.
Print Assumptions C65_solver.

(** Without points on both sides of some split, the model has no optimal solution. *)
Theorem C65_unbounded : forall I scen inf l r, wf_inst I -> Forall (fun s => s < i_k I) scen -> NoDup scen -> admissible scen inf l r ->
  (forall x, ~ relax_sat I l x) -> (forall x, ~ relax_sat I r x) -> forall V, exists p, acc_feasible I scen inf p /\ ap_alpha p = V.
Proof. exact split_unbounded. Qed.
Print Assumptions C65_unbounded.

Example C65_example : best_split exS [0; 1; 2] [0; 1; 2] [0] [1; 2] (5 # 2) /\
  (forall l r v, admissible [0; 1; 2] [0; 1; 2] l r -> split_cost exS l r v ->
    (Permutation l [0] /\ Permutation r [1; 2]) \/ (Permutation r [0] /\ Permutation l [1; 2]) \/ (7 # 2 <= v)%Q) /\
  (forall V, exists p, acc_feasible exU [0; 1] [0; 1] p /\ ap_alpha p = V).
Proof. split; [exact exS_best|]. split; [exact exS_other|exact exU_unbounded]. Qed.

(** ** C66 *)
(** In every state of a refinement by cost, the table holds the subsets with two infeasible scenarios, each with its best split. *)
Theorem C66_table : forall acc argsort I, wf_inst I -> packing I -> acc_exact I acc -> argsort_ok argsort -> (0 <= i_eps I)%Q ->
  forall bad costs vUB cs0 old, cost_reachable acc argsort I cs0 -> valid_partition (i_k I) old -> length costs = length old ->
  nb_bad bad old <= tolerated I -> tolerated I < count bad (seq 0 (i_k I)) ->
  forall st cs, cost_round acc argsort I bad costs vUB cs0 old st cs ->
  forall c, In c (map fst (c_cost cs)) <-> c < length (r_part st) /\ 2 <= count bad (nth c (r_part st) []).
Proof. exact round_table. Qed.
Print Assumptions C66_table.
Theorem C66_costs : forall acc argsort I, wf_inst I -> packing I -> acc_exact I acc -> argsort_ok argsort -> (0 <= i_eps I)%Q ->
  forall bad costs vUB cs0 old, cost_reachable acc argsort I cs0 -> valid_partition (i_k I) old -> length costs = length old ->
  nb_bad bad old <= tolerated I -> tolerated I < count bad (seq 0 (i_k I)) ->
  forall st cs, cost_round acc argsort I bad costs vUB cs0 old st cs ->
  forall c v, dget c (c_cost cs) = Ok v ->
  exists l r, dget c (c_left cs) = Ok l /\ dget c (c_right cs) = Ok r /\
    best_split I (nth c (r_part st) []) (filter bad (nth c (r_part st) [])) l r v.
Proof. exact round_costs. Qed.
Print Assumptions C66_costs.

(** Each turn of the loop replaces one subset by the two sides of its best split: the subset whose best split costs most among
    those that cost at most the upper bound or, if there is none, the one whose best split costs least. *)
Theorem C66_step : forall acc argsort I, wf_inst I -> packing I -> acc_exact I acc -> argsort_ok argsort -> (0 <= i_eps I)%Q ->
  forall bad costs vUB cs0 old, cost_reachable acc argsort I cs0 -> valid_partition (i_k I) old -> length costs = length old ->
  nb_bad bad old <= tolerated I -> tolerated I < count bad (seq 0 (i_k I)) ->
  forall st cs, cost_round acc argsort I bad costs vUB cs0 old st cs -> r_cnt st < tolerated I + 1 - nb_bad bad old ->
  exists st' cs' c v l r, perform_accurate_split acc (filter bad (seq 0 (i_k I))) vUB st cs = Ok (st', cs') /\
    c < length (r_part st) /\ r_part st' = upd c l (r_part st) ++ [r] /\
    best_split I (nth c (r_part st) []) (filter bad (nth c (r_part st) [])) l r v /\
    ((ext_leb (Fin v) vUB = true /\ forall c' l' r' v', c' < length (r_part st) ->
        best_split I (nth c' (r_part st) []) (filter bad (nth c' (r_part st) [])) l' r' v' -> ext_leb (Fin v') vUB = true -> (v' <= v)%Q) \/
     (forall c' l' r' v', c' < length (r_part st) ->
        best_split I (nth c' (r_part st) []) (filter bad (nth c' (r_part st) [])) l' r' v' -> ext_leb (Fin v') vUB = false /\ (v <= v')%Q)).
Proof. exact round_step. Qed.
Print Assumptions C66_step.

(** Every refinement by cost goes through such states. *)
Theorem C66_states : forall acc argsort I bad fm costs vUB cs0 old R cs', (0 <= i_eps I)%Q -> valid_partition (i_k I) old ->
  refine_cost acc argsort I (pattern (i_k I) bad fm) costs vUB cs0 old = Ok (R, cs') ->
  exists st, cost_round acc argsort I bad costs vUB cs0 old st cs' /\ r_part st = rf_part R /\ r_new st = rf_new R /\
    r_cnt st = tolerated I + 1 - nb_bad bad old.
Proof. exact refine_round. Qed.
Print Assumptions C66_states.

(** The single subset of three scenarios: every exact solver leads to the same two subsets, at cost 5/2. *)
Example C66_example : (exists acc, acc_exact exS acc) /\ forall acc argsort, acc_exact exS acc -> argsort_ok argsort ->
  forall st cs, cost_round acc argsort exS (fun _ => true) [5%Q] (Fin 4) cstate0 [[0; 1; 2]] st cs -> r_cnt st = 0 ->
  exists st' cs' l r, perform_accurate_split acc [0; 1; 2] (Fin 4) st cs = Ok (st', cs') /\ r_part st' = [l; r] /\
    ((Permutation l [0] /\ Permutation r [1; 2]) \/ (Permutation r [0] /\ Permutation l [1; 2])) /\ exists v, dget 0 (c_cost cs) = Ok v /\ (v == 5 # 2)%Q.
Proof. split; [exact (acc_exact_exists exS exS_wf exS_packing)|exact exS_step]. Qed.
