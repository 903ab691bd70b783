(** Properties C27 (warm start), C28 (pruning), C37-C39 (lower bounds), C46 (time). *)
From Verif Require Import Base BaseFacts Spec Instance OptModels Initial Bounds InitialFacts OptFacts
  BoundsFacts BruteForce BruteForceFacts Ex.

(** ** C27 *)
Theorem C27_warm_start : forall (p : list (list nat)) zUB deleted d, length zUB <= length p ->
  forall j v, In (j, v) (get_z_start zUB deleted) <->
  v = 1%Q /\ exists i, i < length p /\ ~ In i deleted /\ (nth i zUB 0 == 1)%Q /\
     j = new_index deleted i /\ j < length (survivors deleted p) /\
     nth j (survivors deleted p) d = nth i p d.
Proof. exact z_start_follows. Qed.
Print Assumptions C27_warm_start.

(** With a list of deleted subsets that is not the one of the last merge, the start selects a
    subset that was not selected. *)
Example C27_example :
  get_z_start [1; 0; 0; 1; 0]%Q [1; 2] = [(0, 1%Q); (1, 1%Q)] /\
  survivors [1; 2] [[0]; [1]; [2]; [3]; [4]] = [[0]; [3]; [4]] /\
  get_z_start [0; 0; 1]%Q [0] = [(1, 1%Q)] /\ survivors [] [[0]; [1]; [2]] = [[0]; [1]; [2]].
Proof. vm_compute. repeat split. Qed.

(** ** C28 *)
Theorem C28_pruning : forall I p V lz bM st costs v g t m0 m1 x z,
  wf_inst I -> valid_partition (i_k I) p ->
  load_partition I (uniform (i_k I)) (length p) p = Ok V ->
  length costs = length p ->
  (forall c y, c < length p -> det_feasible I (nth c p []) 0 y -> (obj I y <= nth c costs 0)%Q) ->
  cclp_model V false lz bM st [] g t = Ok m0 ->
  cclp_model V false lz bM st (prune_indices costs (Fin v)) g t = Ok m1 ->
  (model_ok 0 m1 x z -> model_ok 0 m0 x z) /\
  (model_ok 0 m0 x z -> ~ model_ok 0 m1 x z -> (obj I x <= v - (1 # 1000))%Q).
Proof. exact prune_indicator. Qed.
Print Assumptions C28_pruning.

Theorem C28_pruned_subsets : forall costs vLB c, In c (prune_indices costs vLB) <->
  c < length costs /\ match vLB with Fin v => (nth c costs 0 <= v - (1 # 1000))%Q
                                | NInf => False | PInf => True end.
Proof. exact prune_In. Qed.
Print Assumptions C28_pruned_subsets.

Example C28_example :
  prune_indices [5; 9; 7]%Q (Fin (7 + (1 # 1000)))%Q = [0; 2] /\ prune_indices [5; 9; 7]%Q NInf = [].
Proof. vm_compute. split; reflexivity. Qed.

(** ** C37 *)
Theorem C37_selection : forall argsort proba eps k index sel,
  argsort_ok argsort -> length proba = k -> length index = k ->
  selected_scenarios argsort proba eps k index = Ok (Some sel) ->
  (1 - eps - (1 # 10000000) <= qsum (map (fun t => nth t proba 0) sel))%Q /\
  (forall a b, sel = a ++ b -> a <> [] -> b <> [] ->
     (qsum (map (fun t => nth t proba 0) a) < 1 - eps - (1 # 10000000))%Q) /\
  NoDup sel /\ Forall (fun s => s < k) sel /\
  StronglySorted (fun i j => nth i index 0 <= nth j index 0)%Q sel /\
  (forall s t, In s sel -> t < k -> ~ In t sel -> (nth s index 0 <= nth t index 0)%Q).
Proof. exact selected_spec. Qed.
Print Assumptions C37_selection.

Theorem C37_selection_exists : forall argsort eps k index,
  argsort_ok argsort -> 0 < k -> length index = k -> (- (1 # 10000000) <= eps)%Q ->
  exists sel, selected_scenarios argsort (uniform k) eps k index = Ok (Some sel).
Proof. exact selected_exists. Qed.
Print Assumptions C37_selection_exists.

Theorem C37_violations : forall argsort I index sel tau x,
  argsort_ok argsort -> 0 < i_k I -> length index = i_k I ->
  selected_scenarios argsort (uniform (i_k I)) (i_eps I) (i_k I) index = Ok (Some sel) ->
  det_feasible I sel tau x ->
  (Qn (nviol I tau x) <= i_eps I * Qn (i_k I) + (1 # 10000000) * Qn (i_k I))%Q.
Proof. exact selected_feasible. Qed.
Print Assumptions C37_violations.

Theorem C37_feasible : forall argsort I index sel tau x,
  argsort_ok argsort -> 0 < i_k I -> length index = i_k I -> (0 <= i_eps I)%Q ->
  Qfloor (i_eps I * Qn (i_k I) + (1 # 10000000) * Qn (i_k I)) = Qfloor (i_eps I * Qn (i_k I)) ->
  selected_scenarios argsort (uniform (i_k I)) (i_eps I) (i_k I) index = Ok (Some sel) ->
  det_feasible I sel tau x -> cc_feasible I tau x.
Proof. exact selected_cc_feasible. Qed.
Print Assumptions C37_feasible.

(** Without the condition on the floors the selected scenarios do not guarantee feasibility. *)
Theorem C37_feasible_refuted : exists I index sel x,
  wf_inst I /\ packing I /\
  length index = i_k I /\ (0 <= i_eps I < 1)%Q /\
  selected_scenarios argsort_ref (uniform (i_k I)) (i_eps I) (i_k I) index = Ok (Some sel) /\
  det_feasible I sel 0 x /\ ~ cc_feasible I 0 x.
Proof. exact selected_infeasible. Qed.
Print Assumptions C37_feasible_refuted.

Example C37_example :
  map Qred (violation_index norm1 exI [1; 1]%Q) = [1 # 3; 0; 1 # 3]%Q /\
  selected_scenarios argsort_ref (uniform 3) (1 # 3) 3 [1 # 3; 0; 1 # 4]%Q = Ok (Some [1; 2]).
Proof. vm_compute. split; reflexivity. Qed.

(** ** C38 *)
Theorem C38_reused_model : forall I calls, Forall (fun c => NoDup (snd c)) calls ->
  exists lb cuts, lb_history I (lb_init I) calls = Ok lb /\
    lb_scen lb = last (map snd calls) [0] /\
    incl cuts (map fst calls) /\
    Permutation (map snd (lb_store lb))
      (flat_map (fun s => map (fun i => CLe (row I s i) (rhs I s i)) (seq 0 (i_m I)))
         (last (map snd calls) [0]) ++ map (CGe (i_c I)) cuts) /\
    (forall tau x, model_ok tau (lb_model I lb) x [] -> det_feasible I (last (map snd calls) [0]) tau x) /\
    (forall x, det_feasible I (last (map snd calls) [0]) 0 x ->
       (forall v, In v (map fst calls) -> ext_leb v (Fin (obj I x)) = true) ->
       model_ok 0 (lb_model I lb) x []).
Proof. exact lb_history_model. Qed.
Print Assumptions C38_reused_model.

Example C38_example : exists lb,
  lb_history exI (lb_init exI) [(NInf, [1; 2]); (Fin 4%Q, [2; 0]); (Fin 5%Q, [0; 1])] = Ok lb /\
  length (lb_store lb) = 6 /\ lb_next lb = 12.
Proof. eexists. split; [vm_compute; reflexivity|]. vm_compute. split; reflexivity. Qed.

(** ** C39 *)
Theorem C39_incumbent : forall norm argsort I cands vUB vLB, argsort_ok argsort ->
  match incumbent_bound norm argsort I cands vUB vLB with
  | Some (x, v) => In x cands /\ v = obj I x /\ improving I vUB vLB x /\
       forall y, In y cands -> improving I vUB vLB y -> (obj I y <= v)%Q
  | None => forall y, In y cands -> ~ improving I vUB vLB y
  end.
Proof. exact incumbent_spec. Qed.
Print Assumptions C39_incumbent.

Example C39_example :
  option_map (fun xv => (fst xv, Qred (snd xv)))
    (incumbent_bound norm1 argsort_ref exI [[0; 0]; [1; 1]; [0; 1]; [1; 0]]%Q (Fin 10) (Fin 3)) =
  Some ([1; 0], 5)%Q /\
  incumbent_bound norm1 argsort_ref exI [[0; 0]; [1; 1]; [0; 1]]%Q (Fin 10) (Fin 4) = None.
Proof. vm_compute. split; reflexivity. Qed.

(** ** C46 *)
Theorem C46_remaining_time : forall t0 limit now now',
  (0 <= limit)%Q -> (t0 <= now)%Q -> (now <= now')%Q ->
  forall t, exists r r', tm_remaining now (tm_set t0 limit t) = Ok r /\
    tm_remaining now' (tm_set t0 limit t) = Ok r' /\
    (0 <= r' /\ r' <= r /\ r <= limit)%Q /\
    (r' == 0 <-> limit <= now' - t0)%Q.
Proof. exact time_budget. Qed.
Print Assumptions C46_remaining_time.

Theorem C46_total_time : forall t0 limit fin t,
  tm_total (tm_finish fin (tm_set t0 limit t)) = Ok (fin - t0)%Q.
Proof. exact time_total. Qed.
Print Assumptions C46_total_time.

(** The budget of a first solver is forgotten once a second one is created. *)
Theorem C46_budget_is_global : forall t1 l1 t2 l2 now t,
  tm_remaining now (tm_set t2 l2 (tm_set t1 l1 t)) = tm_remaining now (tm_set t2 l2 t).
Proof. exact time_global. Qed.
Print Assumptions C46_budget_is_global.

Theorem C46_solver_limit_negative : forall t0 limit now d,
  (t0 <= now)%Q -> (0 <= limit)%Q -> forall t r,
  tm_remaining now (tm_set t0 limit t) = Ok r ->
  ((grb_time_limit r now (now + d) < 0)%Q <-> (r < d)%Q).
Proof. exact grb_limit_negative. Qed.
Print Assumptions C46_solver_limit_negative.

Example C46_example :
  tm_remaining 107 (tm_set 100 10 tm0) = Ok (10 - (107 - 100))%Q /\
  tm_remaining 120 (tm_set 100 10 tm0) = Ok 0%Q /\
  Qlt_bool (grb_time_limit 3 107 111) 0 = true /\
  tm_remaining 120 tm0 = Err TypeError.
Proof. vm_compute. repeat split. Qed.
