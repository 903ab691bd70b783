(** Properties C11-C14 and C53: initial partition, quantile bound, first iteration. *)
From Verif Require Import Base BaseFacts Spec Instance OptModels Initial Bounds InitialFacts OptFacts BoundsFacts
  BruteForce BruteForceFacts Ex.

(** ** C11 *)
Theorem C11_initial_partition : forall argsort perm costs k n ty,
  argsort_ok argsort -> Permutation perm (seq 0 k) -> length costs = k ->
  0 < n -> n <= k -> ty <> InitOther ->
  exists p, create_first_partition argsort perm costs k n ty = Ok p /\
    length p = n /\ valid_partition k p /\
    (forall S T, In S p -> In T p -> length S <= length T + 1).
Proof. exact initial_partition. Qed.
Print Assumptions C11_initial_partition.

Theorem C11_too_many_subsets : forall argsort perm costs k n ty, k < n ->
  create_first_partition argsort perm costs k n ty = Err AssertionError.
Proof. exact initial_too_many. Qed.
Print Assumptions C11_too_many_subsets.

Example C11_example :
  create_first_partition argsort_ref [] [3; 9; 1; 5; 7]%Q 5 2 InitCost = Ok [[1; 3; 2]; [4; 0]] /\
  create_first_partition argsort_ref [4; 0; 3; 1; 2] [] 5 3 InitRandom = Ok [[4; 1]; [0; 2]; [3]] /\
  create_first_partition argsort_ref [4; 0; 3; 1; 2] [] 5 6 InitRandom = Err AssertionError.
Proof. vm_compute. repeat split. Qed.

(** ** C12 *)
Theorem C12_cost_start : forall argsort I costs p s v pcosts sols,
  argsort_ok argsort -> 0 < i_k I -> (0 <= i_eps I)%Q -> length costs = i_k I ->
  tolerated I + 1 <= i_k I ->
  (forall t y, t < i_k I -> det_feasible I [t] 0 y -> (obj I y <= nth t costs 0)%Q) ->
  create_first_partition argsort [] costs (i_k I) (tolerated I + 1) InitCost = Ok p ->
  ahmed_bound argsort costs (uniform (i_k I)) (i_eps I) = Ok (Some (s, v)) ->
  length pcosts = length p -> length sols = length p ->
  (forall c, c < length p -> det_opt I (nth c p []) (nth c pcosts 0)%Q) ->
  Forall (fun w => w <= v)%Q pcosts /\
  forall x z vo vb, first_iteration_bound pcosts sols = Ok (x, z, vo, vb) -> (vo <= v /\ vb <= v)%Q.
Proof. exact cost_start. Qed.
Print Assumptions C12_cost_start.

(** Five scenarios with one knapsack item each; the first partition has maximum cost 5,
    the quantile bound is 5. *)
Example C12_example :
  create_first_partition argsort_ref [] [3; 9; 1; 5; 7]%Q 5 3 InitCost = Ok [[1; 0]; [4; 2]; [3]] /\
  ahmed_bound argsort_ref [3; 9; 1; 5; 7]%Q (uniform 5) (2 # 5) = Ok (Some (3, 5%Q)) /\
  first_iteration_bound [3; 1; 5]%Q [[1]; [2]; [4]]%Q = Ok ([4], [0; 0; 1], 5, 5)%Q.
Proof. vm_compute. repeat split. Qed.

(** ** C13 *)
Theorem C13_quantile_valid_any_proba : forall argsort I costs proba eps s v,
  argsort_ok argsort -> Forall (fun q => 0 <= q)%Q proba ->
  length costs = i_k I -> length proba = i_k I ->
  (forall t y, t < i_k I -> det_feasible I [t] 0 y -> (obj I y <= nth t costs 0)%Q) ->
  ahmed_bound argsort costs proba eps = Ok (Some (s, v)) ->
  forall x, in_dom I x -> (viol_mass I proba 0 x (seq 0 (i_k I)) <= eps)%Q -> (obj I x <= v)%Q.
Proof. exact ahmed_valid. Qed.
Print Assumptions C13_quantile_valid_any_proba.

Theorem C13_quantile_valid : forall argsort I costs s v,
  argsort_ok argsort -> 0 < i_k I -> length costs = i_k I ->
  (forall t y, t < i_k I -> det_feasible I [t] 0 y -> (obj I y <= nth t costs 0)%Q) ->
  ahmed_bound argsort costs (uniform (i_k I)) (i_eps I) = Ok (Some (s, v)) ->
  upper_bound I v.
Proof. exact ahmed_upper_bound. Qed.
Print Assumptions C13_quantile_valid.

Theorem C13_quantile_tight : forall argsort costs proba eps,
  argsort_ok argsort -> length costs = length proba -> Forall (fun q => 0 <= q)%Q proba ->
  forall s v, ahmed_bound argsort costs proba eps = Ok (Some (s, v)) -> (0 <= eps)%Q ->
  (qsum (map (fun t => if Qlt_bool (nth t costs 0) v then nth t proba 0 else 0)
          (seq 0 (length proba))) < eps + (1 # 10000000))%Q.
Proof. exact ahmed_quantile. Qed.
Print Assumptions C13_quantile_tight.

Theorem C13_quantile_none : forall argsort costs proba eps,
  argsort_ok argsort -> length costs = length proba -> Forall (fun q => 0 <= q)%Q proba ->
  0 < length proba ->
  (ahmed_bound argsort costs proba eps = Ok None <-> (qsum proba < eps + (1 # 10000000))%Q).
Proof. exact ahmed_none. Qed.
Print Assumptions C13_quantile_none.

Theorem C13_quantile_no_error : forall argsort costs proba eps,
  argsort_ok argsort -> length costs = length proba ->
  forall e, ahmed_bound argsort costs proba eps <> Err e.
Proof. exact ahmed_no_error. Qed.
Print Assumptions C13_quantile_no_error.

Example C13_example :
  ahmed_bound argsort_ref [3; 9; 1; 5; 7]%Q (uniform 5) (2 # 5) = Ok (Some (3, 5%Q)) /\
  ahmed_bound argsort_ref [3; 9; 1; 5; 7]%Q (uniform 5) 1 = Ok None.
Proof. vm_compute. split; reflexivity. Qed.

(** ** C14 *)
Theorem C14_first_iteration : forall I tau p costs sols x z v b,
  (0 <= i_eps I)%Q -> length p = tolerated I + 1 ->
  length costs = length p -> length sols = length p ->
  (forall c, c < length p -> det_feasible I (nth c p []) tau (nth c sols []) /\
                             (obj I (nth c sols []) == nth c costs 0)%Q) ->
  (forall c y, c < length p -> det_feasible I (nth c p []) 0 y -> (obj I y <= nth c costs 0)%Q) ->
  first_iteration_bound costs sols = Ok (x, z, v, b) ->
  part_feasible I p tau x /\ (obj I x == v)%Q /\ b = v /\
  (forall y, part_feasible I p 0 y -> (obj I y <= v)%Q) /\
  length z = length p /\ is_bin z /\
  (forall c, c < length p -> (nth c z 0 == 1)%Q -> subset_sat I tau x (nth c p [])) /\
  (Qn (count (fun w => Qeq_bool w 0) z) <= i_eps I * Qn (i_k I))%Q.
Proof. exact first_iteration. Qed.
Print Assumptions C14_first_iteration.

Theorem C14_first_iteration_returns : forall costs sols,
  0 < length costs -> length sols = length costs ->
  exists x z v, first_iteration_bound costs sols = Ok (x, z, v, v).
Proof. exact first_iteration_some. Qed.
Print Assumptions C14_first_iteration_returns.

Example C14_example :
  (0 <= i_eps exI)%Q /\ length [[2; 0]; [1]] = tolerated exI + 1 /\
  det_feasible exI [2; 0] 0 [1; 0]%Q /\ det_feasible exI [1] 0 [1; 1]%Q /\
  first_iteration_bound [5; 9]%Q [[1; 0]; [1; 1]]%Q = Ok ([1; 1], [0; 1], 9, 9)%Q.
Proof.
  split; [discriminate|]. split; [reflexivity|].
  split; [|split; [|vm_compute; reflexivity]]; apply det_feasible_dec; vm_compute; reflexivity.
Qed.

(** ** C53 *)
Theorem C53_cost_monotone : forall I S T x z v b x' z' v' b', incl T S ->
  outcome_exact (deter_model I S) (Solved x z v b) ->
  outcome_exact (deter_model I T) (Solved x' z' v' b') -> (v <= v')%Q.
Proof. exact cost_monotone. Qed.
Print Assumptions C53_cost_monotone.

Theorem C53_infeasible_monotone : forall I S T, incl T S ->
  outcome_exact (deter_model I T) Infeasible -> forall x z, ~ model_ok 0 (deter_model I S) x z.
Proof. exact cost_infeasible_mono. Qed.
Print Assumptions C53_infeasible_monotone.

Theorem C53_cost_is_optimum : forall I S x z v b,
  outcome_exact (deter_model I S) (Solved x z v b) -> det_opt I S v.
Proof. exact deter_exact_opt. Qed.
Print Assumptions C53_cost_is_optimum.

Example C53_example : det_opt exI [1] 9 /\ det_opt exI [2; 0; 1] 5.
Proof. split; (apply brute_det_opt; [reflexivity|vm_compute; reflexivity]). Qed.
