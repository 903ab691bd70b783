(** Properties of the adaptive partitioner: C12, C16, C24, C25, C27 in the main loop; C41, C56. *)
From Verif Require Import Base BaseFacts Spec Instance OptModels Initial Bounds Refine CostRefine Merge Adaptive AdaptiveSpec AdaptiveWp
  AdaptiveStruct AdaptiveStart AdaptiveEx BruteForce Ex.

(** ** C41 *)
Theorem C41_iteration : forall w I cf s r s', iteration w I cf s = (r, s') ->
  ext_leb (a_vLB s) (a_vLB s') = true /\ ext_leb (a_vUB s') (ext_add (a_vUB s) (1 # 100000000)) = true.
Proof. exact iteration_monotone. Qed.
Print Assumptions C41_iteration.

Theorem C41_loop : forall w I cf fuel s r s', main_loop w I cf fuel s = (r, s') ->
  ext_leb (a_vLB s) (a_vLB s') = true /\
  ext_leb (a_vUB s') (ext_add (a_vUB s) (Qn fuel * (1 # 100000000))) = true.
Proof. exact loop_monotone. Qed.
Print Assumptions C41_loop.

Theorem C41_solve : forall w I cf fuel num s r s', solve w I cf fuel num s = (r, s') ->
  (ext_leb (a_vLB s) (a_vLB s') = true \/ a_vLB s' = a_vUB s') /\
  ext_leb (a_vUB s') (ext_add (a_vUB s) (Qn fuel * (1 # 100000000))) = true.
Proof. exact solve_monotone. Qed.
Print Assumptions C41_solve.

Theorem C41_final_assignment_refuted :
  (forall t m, outcome_ok tol6 m (w_solve (ex_world exT brute_tol) t m)) /\
  exists s r, run (ex_world exT brute_tol) exT ex_plain 20 = (Ok Feasible, s) /\ In r (a_log s) /\ a_vLB s = a_vUB s /\ ext_leb (ext_opp (l_nLB r)) (a_vLB s) = false.
Proof. exact (conj brute_tol_outcome final_decrease). Qed.
Print Assumptions C41_final_assignment_refuted.

Example C41_example : show_run (run (ex_world exI (fun _ m => brute m)) exI ex_plain 20) =
  (Ok Feasible, [Fin 5; Fin 5]%Q, [[0]; [1]; [2]], 2,
   [(1, [Fin (- (5)); Fin (- (9))]%Q, 2); (1, [Fin (- (5)); Fin (- (9))]%Q, 2); (2, [Fin (- (5)); Fin (- (5))]%Q, 3)]).
Proof. vm_compute. reflexivity. Qed.

(** ** C56 *)
Theorem C56_log_monotone : forall w I cf fuel r s, run w I cf fuel = (r, s) ->
  forall l1 a b l2, a_log s = l1 ++ a :: b :: l2 ->
    l_iter a <= l_iter b /\ ext_leb (l_nLB b) (l_nLB a) = true /\
    ext_leb (ext_opp (l_nUB b)) (ext_add (ext_opp (l_nUB a)) (1 # 100000000)) = true.
Proof. exact run_log. Qed.
Print Assumptions C56_log_monotone.

Theorem C56_rows_per_iteration : forall w I cf s s', (forall t t', t <= t' -> (w_clock w t <= w_clock w t')%Q) ->
  iteration w I cf s = (Ok Continue, s') ->
  exists u l, a_log s' = a_log s ++ [u; l] /\ a_iter s' = S (a_iter s) /\
    l_iter u = a_iter s /\ l_iter l = a_iter s /\ l_nb u = a_nb s /\ l_nb l = a_nb s /\
    l_nLB u = ext_opp (a_vLB s) /\ l_nUB u = l_nUB l.
Proof. exact two_rows. Qed.
Print Assumptions C56_rows_per_iteration.

Example C56_example : show_run (run (ex_world exT brute_tol) exT ex_plain 20) =
  (Ok Feasible, [Fin 5; Fin 5]%Q, [[0]; [1]; [2]], 2,
   [(1, [Fin (- (5)); Fin (- (9))]%Q, 2); (1, [Fin (- (50001 # 10000)); Fin (- (9))]%Q, 2);
    (2, [Fin (- (50001 # 10000)); Fin (- (5))]%Q, 3)]).
Proof. vm_compute. reflexivity. Qed.

(** ** C25 *)
Theorem C25_aligned_at_loop_head : forall w I cf, oracles_ok w I -> wf_inst I -> (0 <= i_eps I)%Q ->
  forall s, head_reach w I cf s -> aligned w I (a_part s) (a_costs s) (a_sols s).
Proof. exact aligned_head. Qed.
Print Assumptions C25_aligned_at_loop_head.

Theorem C25_aligned_after_split_and_merge : forall w I cf, oracles_ok w I -> wf_inst I -> (0 <= i_eps I)%Q ->
  forall s s1 x R nc s2, step_reach w I cf s s1 x R nc s2 ->
    aligned w I (a_part s2) (a_costs s2) (a_sols s2) /\
    forall s3, merge_step w I cf x R nc s2 = (Ok tt, s3) -> aligned w I (a_part s3) (a_costs s3) (a_sols s3).
Proof. exact aligned_step. Qed.
Print Assumptions C25_aligned_after_split_and_merge.

Theorem C25_partition_at_loop_head : forall w I cf, oracles_ok w I -> wf_inst I -> (0 <= i_eps I)%Q ->
  forall s, head_reach w I cf s -> valid_partition (i_k I) (a_part s) /\ a_nb s = length (a_part s) /\ tolerated I + 1 <= a_nb s /\
    load_partition I (uniform (i_k I)) (a_nb s) (a_part s) = Ok (a_view s).
Proof. exact partition_head. Qed.
Print Assumptions C25_partition_at_loop_head.

(** Before the loop, after an iteration that splits and merges, after one that only splits. *)
Example C25_example : map (fun n => show_head (head_state exS_world exS ex_merge n)) [0; 1; 2] =
  [ Some ([[0; 4; 8]; [1; 5]; [2; 6]; [3; 7]], [9; 19; 19; 14]%Q,
          [[0; 0; 1; 0]; [1; 1; 1; 0]; [1; 1; 1; 0]; [1; 0; 1; 0]]%Q, false, [], None);
    Some ([[0; 8]; [1; 5; 2; 6; 3]; [7]; [4]], [18; 14; 14; 9]%Q,
          [[1; 0; 1; 1]; [1; 0; 1; 0]; [1; 0; 1; 0]; [0; 0; 1; 0]]%Q, true, [2; 3], Some [0; 1; 0; 0]%Q);
    Some ([[0; 8]; [1; 2; 3]; [7]; [4]; [5; 6]], [18; 14; 14; 9; 19]%Q,
          [[1; 0; 1; 1]; [1; 0; 1; 0]; [1; 0; 1; 0]; [0; 0; 1; 0]; [1; 1; 1; 0]]%Q, false, [2; 3], Some [1; 0; 0; 0]%Q) ].
Proof. vm_compute. reflexivity. Qed.
Example C25_oracles : forall solve, oracles_ok (ex_world exS solve) exS.
Proof. exact exS_oracles. Qed.

(** ** C24 *)
Theorem C24_merge_never_fails : forall w I cf, oracles_ok w I -> wf_inst I -> (0 <= i_eps I)%Q ->
  forall s s1 x R nc s2 r s3, clock_mono w -> step_reach w I cf s s1 x R nc s2 ->
  merge_step w I cf x R nc s2 = (r, s3) ->
  match r with
  | Ok _ =>
      (a_merged s3 = true <-> c_merger cf = true /\ Forall (fun v => ext_leb (Fin v) (a_vUB s2) = true) nc) /\
      (a_merged s3 = true -> length (a_part s3) = length (a_part s)) /\
      (a_merged s3 = true -> length (rf_feasible R) = rf_mu R -> length (a_part s3) = tolerated I + 1) /\
      (a_merged s3 = false -> a_part s3 = a_part s2) /\
      valid_partition (i_k I) (a_part s3) /\ a_nb s3 = length (a_part s3)
  | Err e => external w I e
  end /\ rf_mu R <= length (rf_feasible R).
Proof. exact merge_never_fails. Qed.
Print Assumptions C24_merge_never_fails.

Example C24_example : clock_mono exS_world /\
  exists s s1 x R nc s2 s3, step_reach exS_world exS ex_merge s s1 x R nc s2 /\
    merge_step exS_world exS ex_merge x R nc s2 = (Ok tt, s3) /\
    a_merged s3 = true /\ length (a_part s2) = 6 /\ length (a_part s3) = 4 /\ rf_mu R = 2.
Proof. exact (conj ex_clock_mono merge_example). Qed.

(** ** C16 in the main loop *)
Theorem C16_main_loop : forall w I cf, oracles_ok w I -> wf_inst I -> (0 <= i_eps I)%Q ->
  forall s s1 x R nc s2, clock_mono w -> step_reach w I cf s s1 x R nc s2 ->
  exists y, x = Some y /\ tolerated I < nviol I tol6 y /\ nunsat I tol6 y (a_part s) <= tolerated I /\
    tolerated I < nunsat I tol6 y (a_part s2) /\ (forall tau, (tau <= tol6)%Q -> ~ part_feasible I (a_part s2) tau y) /\
    forall s3, merge_step w I cf x R nc s2 = (Ok tt, s3) ->
      tolerated I < nunsat I tol6 y (a_part s3) /\ (forall tau, (tau <= tol6)%Q -> ~ part_feasible I (a_part s3) tau y).
Proof. exact cut_off. Qed.
Print Assumptions C16_main_loop.

Example C16_main_loop_example : nunsat exS tol6 [1; 1; 1; 0]%Q [[0; 4; 8]; [1; 5]; [2; 6]; [3; 7]] = 2 /\
  nunsat exS tol6 [1; 1; 1; 0]%Q [[0; 8]; [1; 5; 2; 6; 3]; [7]; [4]] = 4 /\ tolerated exS = 3.
Proof. vm_compute. auto. Qed.

(** ** C12 in the main loop *)
Theorem C12_first_iteration : forall w I cf, oracles_ok w I -> wf_inst I -> (0 <= i_eps I)%Q -> c_init cf = InitCost ->
  forall b s0 s1, (forall t S, outcome_exact (deter_model I S) (w_solve w t (deter_model I S))) ->
  construct w I cf (ast0 I) = (Ok b, s0) -> prologue w I cf b s0 = (Ok Continue, s1) ->
  exists v, a_vUB s1 = Fin v /\ 0 < length (a_costs s1) /\ Forall (fun c => c <= v)%Q (a_costs s1) /\
    forall x ok s2, upper_bound_step w I cf s1 = (Ok (x, ok), s2) -> a_xUB s2 = x.
Proof. exact first_iteration_keeps. Qed.
Print Assumptions C12_first_iteration.

Example C12_first_iteration_example : exists s1 s2 ok,
  head_state exS_world exS (ex_cfg SplitCost InitCost Naive true false) 0 = Some s1 /\
  match a_vUB s1 with Fin v => (v == 18)%Q | _ => False end /\ map Qred (a_costs s1) = [9; 18; 14; 14]%Q /\
  upper_bound_step exS_world exS (ex_cfg SplitCost InitCost Naive true false) s1 = (Ok (Some [1; 0; 1; 1]%Q, ok), s2) /\
  a_xUB s2 = Some [1; 0; 1; 1]%Q.
Proof. exact first_example. Qed.

(** ** C27 in the main loop *)
(** When the iteration merges, the deleted list is the one of this merge and the warm start of the next iteration follows the
    subsets (C27_warm_start).  When it does not, the list of an older merge remains. *)
Theorem C27_deleted_by_last_merge : forall w I cf, oracles_ok w I -> wf_inst I -> (0 <= i_eps I)%Q ->
  forall s s1 x R nc s2 s3, step_reach w I cf s s1 x R nc s2 -> merge_step w I cf x R nc s2 = (Ok tt, s3) ->
  a_zUB s3 = a_zUB s2 /\
  (a_merged s3 = true -> exists m T, m < length (a_part s2) /\ ~ In m (ms_deleted (a_ms s3)) /\
     incl (nth m (a_part s2) []) T /\ a_part s3 = survivors (ms_deleted (a_ms s3)) (upd m T (a_part s2))) /\
  (a_merged s3 = false -> a_part s3 = a_part s2 /\ a_ms s3 = a_ms s2).
Proof. exact merge_deleted. Qed.
Print Assumptions C27_deleted_by_last_merge.

Theorem C27_main_loop_refuted : exists s z, head_reach exS_world exS ex_merge s /\ a_merged s = false /\ a_zUB s = Some z /\
  length z <= length (a_part s) /\ ms_deleted (a_ms s) <> [] /\
  In (2, 1%Q) (get_z_start z (ms_deleted (a_ms s))) /\ (nth 2 z 0 == 0)%Q /\
  (nth 4 z 0 == 1)%Q /\ ~ In (4, 1%Q) (get_z_start z (ms_deleted (a_ms s))).
Proof. exact stale_deleted. Qed.
Print Assumptions C27_main_loop_refuted.
