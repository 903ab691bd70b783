(** Refinement by cost with split models that are not solved to optimality (acc_near, near_split in NearSplitSpec.v). *)
From Verif Require Import Base Spec OptModels Refine RefineFacts CostRefine CostRefineFacts SplitSpec SplitEx NearSplitSpec NearSplit NearSplitEx.

(** ** C93 *)

(** A solution within d of the optimum gives a split whose cost is at most the objective, and no split costs less than the objective minus d. *)
Theorem C93_model : forall I d scen inf p l r, wf_inst I -> acc_query I scen inf -> acc_within I d scen inf p -> acc_subsets scen p = (l, r) ->
  near_split I d scen inf l r (ap_alpha p).
Proof. exact near_model. Qed.
Print Assumptions C93_model.

(** In every state of a refinement by cost the table holds such splits. *)
Theorem C93_costs : forall d acc argsort I, wf_inst I -> packing I -> acc_near I d acc -> argsort_ok argsort -> (0 <= i_eps I)%Q ->
  forall bad costs vUB cs0 old, cost_reachable acc argsort I cs0 -> valid_partition (i_k I) old -> length costs = length old ->
  nb_bad bad old <= tolerated I -> tolerated I < count bad (seq 0 (i_k I)) ->
  forall st cs, cost_round acc argsort I bad costs vUB cs0 old st cs ->
  forall c v, dget c (c_cost cs) = Ok v ->
  exists l r, dget c (c_left cs) = Ok l /\ dget c (c_right cs) = Ok r /\
    near_split I d (nth c (r_part st) []) (filter bad (nth c (r_part st) [])) l r v.
Proof. exact near_round_costs. Qed.
Print Assumptions C93_costs.

(** Each turn splits the right subset up to d: no subset whose best split costs at most the upper bound minus d would cost more than the
    objective found or, if no objective is below the upper bound, no best split costs less than it minus d. *)
Theorem C93_step : forall d acc argsort I, wf_inst I -> packing I -> acc_near I d acc -> argsort_ok argsort -> (0 <= i_eps I)%Q ->
  forall bad costs vUB cs0 old, cost_reachable acc argsort I cs0 -> valid_partition (i_k I) old -> length costs = length old ->
  nb_bad bad old <= tolerated I -> tolerated I < count bad (seq 0 (i_k I)) ->
  forall st cs, cost_round acc argsort I bad costs vUB cs0 old st cs -> r_cnt st < tolerated I + 1 - nb_bad bad old ->
  exists st' cs' c v l r, perform_accurate_split acc (filter bad (seq 0 (i_k I))) vUB st cs = Ok (st', cs') /\
    c < length (r_part st) /\ r_part st' = upd c l (r_part st) ++ [r] /\
    near_split I d (nth c (r_part st) []) (filter bad (nth c (r_part st) [])) l r v /\
    ((ext_leb (Fin v) vUB = true /\ forall c' l' r' v', c' < length (r_part st) ->
        best_split I (nth c' (r_part st) []) (filter bad (nth c' (r_part st) [])) l' r' v' -> ext_leb (Fin (v' + d)) vUB = true -> (v' <= v)%Q) \/
     (forall c' l' r' v', c' < length (r_part st) ->
        best_split I (nth c' (r_part st) []) (filter bad (nth c' (r_part st) [])) l' r' v' -> ext_leb (Fin (v' + d)) vUB = false /\ (v <= v' + d)%Q)).
Proof. exact near_round_step. Qed.
Print Assumptions C93_step.

(** With d = 0 these are the exact solvers of C65 and C66; such solvers exist for every d. *)
Theorem C93_exact : forall I acc, acc_near I 0 acc <-> acc_exact I acc.
Proof. exact near_zero. Qed.
Print Assumptions C93_exact.
Theorem C93_solver : forall I d, wf_inst I -> packing I -> (0 <= d)%Q -> exists acc, acc_near I d acc.
Proof. exact near_exists. Qed.
Print Assumptions C93_solver.

(** Every solver within 1/2 of the optimum finds the best split of the three scenarios; within 1 of it another split is possible. *)
Example C93_small : forall acc argsort, acc_near exS (1 # 2) acc -> argsort_ok argsort ->
  forall st cs, cost_round acc argsort exS (fun _ => true) [5%Q] (Fin 4) cstate0 [[0; 1; 2]] st cs -> r_cnt st = 0 ->
  exists st' cs' l r, perform_accurate_split acc [0; 1; 2] (Fin 4) st cs = Ok (st', cs') /\ r_part st' = [l; r] /\
    ((Permutation l [0] /\ Permutation r [1; 2]) \/ (Permutation r [0] /\ Permutation l [1; 2])).
Proof. exact near_example. Qed.
Example C93_other : exists p, acc_within exS 1 [0; 1; 2] [0; 1; 2] p /\ ap_alpha p = (7 # 2)%Q /\
  exists l r, acc_subsets [0; 1; 2] p = (l, r) /\ Permutation l [1] /\ Permutation r [0; 2].
Proof. exact far_point. Qed.
