(** Properties of MilpSolver: C47. *)
From Verif Require Import Base BaseFacts Spec Instance OptModels Initial Bounds Refine CostRefine Merge Violations BigM Adaptive AdaptiveSpec
  Milp MilpFacts AdaptiveEx AdaptiveEx2 MilpEx.

(** ** C47 *)
(** Every normal end: the reported lower bound is the objective of the reported point, the reported upper bound dominates every feasible
    point (with Belotti's method provided that the scenario costs it starts from dominate the points of their scenario); the point is feasible within the tolerance of the solver without big M, with naive big M's, with binary variables, or with
    exact answers. *)
Theorem C47_milp_bounds : forall w I cf tau, argsort_ok (w_argsort w) -> sort_spec (w_sort w) -> wf_inst I -> packing I -> (0 <= i_eps I)%Q ->
  (0 <= tau)%Q -> (forall t m, outcome_ok tau m (w_solve w t m)) ->
  forall um meth bt s, (um = true -> meth = Belotti -> forall S v x, answered w I S v x -> forall y, det_feasible I S 0 y -> (obj I y <= v)%Q) ->
  milp_run w I cf um meth = (Ok bt, s) ->
  exists x v u, a_xLB s = Some x /\ a_vLB s = Fin v /\ a_vUB s = Fin u /\ in_dom I x /\ (v == obj I x)%Q /\ (v <= u)%Q /\ upper_bound I u /\
    (eps_within I tau -> um = false \/ meth = Naive \/ i_cont I = false \/ (tau == 0)%Q -> cc_feasible I tau x).
Proof. exact milp_run_spec. Qed.
Print Assumptions C47_milp_bounds.

(** With the tolerance 1e-9 of the code, continuous variables and tightened big M's: rows dropped because of a negative big M
    are violated by 1/10 at the reported point. *)
Theorem C47_dropped_rows_refuted :
  wf_inst exDrop /\ packing exDrop /\ argsort_ok (w_argsort drop_world) /\ sort_spec (w_sort drop_world) /\
  (forall t m, outcome_ok (1 # 1000000000) m (w_solve drop_world t m)) /\
  (forall S v x, answered drop_world exDrop S v x -> forall y, det_feasible exDrop S 0 y -> (obj exDrop y <= v)%Q) /\
  forall meth, meth = Song \/ meth = Belotti -> exists x s, milp_run drop_world exDrop drop_cfg true meth = (Ok (Some 0%Q), s) /\
    a_xLB s = Some x /\ in_dom exDrop x /\ ~ cc_feasible exDrop tol6 x /\ (dot (row exDrop 0 1) x == rhs exDrop 0 1 + (1 # 10))%Q.
Proof. exact (conj (wf_instb_ok exDrop eq_refl) (conj (packingb_ok exDrop eq_refl) (conj argsort_ref_ok (conj ViolationsFacts.sort_ref_spec (conj drop_ok (conj drop_eval drop_witness)))))). Qed.
Print Assumptions C47_dropped_rows_refuted.

Example C47_example :
  milp_show (milp_run (brute_world exS) exS milp_cfg true Naive) =
    (Ok (Some 0%Q), Some [1; 0; 1; 0]%Q, [Fin 14; Fin 14]%Q, [[5]; [10]; [3]; [6]; [23]; [9]; [-1]; [15]; [-4]]%Q) /\
  milp_show (milp_run (brute_world exS) exS milp_cfg true Song) =
    (Ok (Some 0%Q), Some [1; 0; 1; 0]%Q, [Fin 14; Fin 14]%Q, [[3]; [7]; [13 # 5]; [5]; [82 # 5]; [22 # 3]; [-8 # 5]; [51 # 4]; [-4]]%Q) /\
  milp_show (milp_run (brute_world exS) exS milp_cfg true Belotti) =
    (Ok (Some 0%Q), Some [1; 0; 1; 0]%Q, [Fin 14; Fin 14]%Q, [[1]; [6]; [3]; [2]; [14]; [7]; [-1]; [12]; [-4]]%Q) /\
  fst (milp_run (brute_world exS) exS milp_cfg true OtherM) = Err ValueError.
Proof. vm_compute. auto. Qed.
