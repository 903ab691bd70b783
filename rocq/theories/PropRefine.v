(** Properties of the refinement step. *)
From Verif Require Import Base Spec Instance OptModels Refine RefineFacts CostRefine CostRefineFacts AccRef
  Merge MergeFacts RefineSum Ex.

(** ** C15 *)
(** For every infeasibility pattern. *)
Theorem C15_random_refinement : forall perm I bad fm old t fuel, perm_oracle perm ->
  (0 <= i_eps I)%Q -> valid_partition (i_k I) old -> nb_bad bad old <= tolerated I ->
  tolerated I < count bad (seq 0 (i_k I)) -> tolerated I + 1 - nb_bad bad old <= fuel ->
  exists R t', refine_random fuel perm I (pattern (i_k I) bad fm) t old = Ok (R, t') /\
    refinement_ok (i_k I) bad (tolerated I + 1 - nb_bad bad old) old R.
Proof. exact refine_random_ok. Qed.
Print Assumptions C15_random_refinement.

(** After the feasibility check of a point. *)
Theorem C15_after_check : forall norm perm I x old t fuel, perm_oracle perm -> (forall r, (0 <= norm r)%Q) ->
  (0 <= i_eps I)%Q -> valid_partition (i_k I) old -> nunsat I tol6 x old <= tolerated I ->
  fst (check_feasibility norm I x) = false -> tolerated I + 1 - nunsat I tol6 x old <= fuel ->
  exists R t', refine_random fuel perm I (snd (check_feasibility norm I x)) t old = Ok (R, t') /\
    refinement_ok (i_k I) (violated I x) (tolerated I + 1 - nunsat I tol6 x old) old R.
Proof. exact random_after_check. Qed.
Print Assumptions C15_after_check.

Example C15_example : exists R,
  refine_random 2 ex_perm exI6 (pattern 6 ex_bad []) 5 [[0; 1; 2; 4]; [3]; [5]] = Ok (R, 7) /\
  rf_part R = [[2; 1; 4]; [3]; [5]; [0]] /\ rf_new R = [0; 3] /\ rf_mu R = 1 /\
  rf_feasible R = [2] /\ rf_infeasible R = [0; 1; 3].
Proof. eexists. split; [vm_compute; reflexivity|]. vm_compute. repeat split. Qed.

(** ** C16 *)
Theorem C16_refinement_cuts : forall I x old mu R, (0 <= i_eps I)%Q ->
  refinement_ok (i_k I) (violated I x) mu old R -> tolerated I + 1 <= nunsat I tol6 x old + mu ->
  tolerated I < nunsat I tol6 x (rf_part R) /\
  forall tau, (tau <= tol6)%Q -> ~ part_feasible I (rf_part R) tau x.
Proof. exact refinement_cuts. Qed.
Print Assumptions C16_refinement_cuts.

Example C16_example :
  nunsat exI6 tol6 [1%Q] [[0; 1; 2; 4]; [3]; [5]] = 2 /\ tolerated exI6 = 2 /\
  nunsat exI6 tol6 [1%Q] [[2; 1; 4]; [3]; [5]; [0]] = 3 /\
  map (violated exI6 [1%Q]) (seq 0 6) = map ex_bad (seq 0 6).
Proof. vm_compute. repeat split. Qed.

(** ** C17 *)
Theorem C17_diverges : forall perm I bad fm old t fuel, perm_oracle perm ->
  (0 <= i_eps I)%Q -> valid_partition (i_k I) old -> count bad (seq 0 (i_k I)) <= tolerated I ->
  refine_random fuel perm I (pattern (i_k I) bad fm) t old = Err NonTermination.
Proof. exact refine_random_diverges. Qed.
Print Assumptions C17_diverges.

Theorem C17_diverges_on_feasible_points : forall norm perm I x old t fuel, perm_oracle perm ->
  (forall r, (0 <= norm r)%Q) -> (0 <= i_eps I)%Q -> valid_partition (i_k I) old ->
  fst (check_feasibility norm I x) = true ->
  refine_random fuel perm I (snd (check_feasibility norm I x)) t old = Err NonTermination.
Proof. exact random_diverges_after_check. Qed.
Print Assumptions C17_diverges_on_feasible_points.

(** At most mu turns of the loop. *)
Theorem C17_terminates_in_mu_passes : forall perm I bad fm old t, perm_oracle perm ->
  (0 <= i_eps I)%Q -> valid_partition (i_k I) old -> nb_bad bad old <= tolerated I ->
  tolerated I < count bad (seq 0 (i_k I)) ->
  exists R t', refine_random (tolerated I + 1 - nb_bad bad old) perm I (pattern (i_k I) bad fm) t old = Ok (R, t').
Proof. exact random_mu_passes. Qed.
Print Assumptions C17_terminates_in_mu_passes.

Example C17_example :
  refine_random 50 ex_perm exI6 (pattern 6 (fun s => s <? 2) []) 5 [[0; 1; 2; 4]; [3]; [5]] = Err NonTermination /\
  refine_random 0 ex_perm exI6 (pattern 6 ex_bad []) 5 [[0; 1; 2; 4]; [3]; [5]] = Err NonTermination /\
  match refine_random 2 ex_perm exI6 (pattern 6 ex_bad []) 5 [[0; 1; 2; 3]; [4]; [5]] with
  | Ok (R, _) => length (rf_part R) = 5 | Err _ => False end.
Proof. vm_compute. repeat split. Qed.

(** ** C18 *)
Theorem C18_cost_refinement : forall acc argsort I cs bad fm costs vUB old, acc_total I acc ->
  (forall t s i p, acc_query I s i -> acc t s i = AccSolved p -> (- 1000000 <= ap_alpha p)%Q) ->
  argsort_ok argsort -> (0 <= i_eps I)%Q -> cost_reachable acc argsort I cs ->
  valid_partition (i_k I) old -> length costs = length old ->
  nb_bad bad old <= tolerated I -> tolerated I < count bad (seq 0 (i_k I)) ->
  exists R cs', refine_cost acc argsort I (pattern (i_k I) bad fm) costs vUB cs old = Ok (R, cs') /\
    refinement_ok (i_k I) bad (tolerated I + 1 - nb_bad bad old) old R /\ cost_reachable acc argsort I cs'.
Proof. exact cost_refinement_total. Qed.
Print Assumptions C18_cost_refinement.

(** For packing data the lower bound on the answers always holds. *)
Theorem C18_packing_costs : forall I acc, wf_inst I -> packing I -> acc_sound I acc ->
  forall t s i p, acc_query I s i -> acc t s i = AccSolved p -> (- 1000000 <= ap_alpha p)%Q.
Proof. exact packing_low. Qed.
Print Assumptions C18_packing_costs.

(** When the split model may fail, only its own exceptions escape. *)
Theorem C18_exceptions : forall acc argsort I, acc_sound I acc ->
  (forall t s i p, acc_query I s i -> acc t s i = AccSolved p -> (- 1000000 <= ap_alpha p)%Q) ->
  argsort_ok argsort -> (0 <= i_eps I)%Q ->
  forall cs bad fm costs vUB old, cost_reachable acc argsort I cs ->
  valid_partition (i_k I) old -> length costs = length old ->
  nb_bad bad old <= tolerated I -> tolerated I < count bad (seq 0 (i_k I)) ->
  match refine_cost acc argsort I (pattern (i_k I) bad fm) costs vUB cs old with
  | Ok (R, cs') => refinement_ok (i_k I) bad (tolerated I + 1 - nb_bad bad old) old R /\
                   cost_reachable acc argsort I cs'
  | Err e => e = AttributeError \/ e = KeyboardInterrupt
  end.
Proof. exact cost_refinement_sound. Qed.
Print Assumptions C18_exceptions.

Theorem C18_memory : forall acc argsort I, acc_sound I acc ->
  (forall t s i p, acc_query I s i -> acc t s i = AccSolved p -> (- 1000000 <= ap_alpha p)%Q) ->
  argsort_ok argsort -> (0 <= i_eps I)%Q ->
  forall cs s i v l r, cost_reachable acc argsort I cs -> NoDup s ->
  mem_get (c_mem cs) s i = Some (v, l, r) ->
  Permutation (l ++ r) s /\ (exists a, In a l /\ In a i) /\ (exists a, In a r /\ In a i) /\
  exists t s' i', t < c_calls cs /\ acc_query I s' i' /\ (forall a, In a s' <-> In a s) /\ (forall a, In a i' <-> In a i) /\
    acc_read s' (acc t s' i') = Ok (v, l, r).
Proof. exact reachable_memory. Qed.
Print Assumptions C18_memory.

Example C18_example : exists R cs,
  refine_cost (acc_ref exI6) argsort_ref exI6 (pattern 6 ex_bad []) [3; 1; 2]%Q (Fin 5) cstate0
    [[0; 1; 2; 4]; [3]; [5]] = Ok (R, cs) /\
  rf_part R = [[0]; [3]; [5]; [1; 2; 4]] /\ rf_new R = [0; 3] /\ c_calls cs = 2 /\
  length (c_mem cs) = 2 /\
  (exists R' cs', refine_cost (acc_ref exI6) argsort_ref exI6 (pattern 6 ex_bad []) [3; 1; 2]%Q (Fin 5) cs
    [[5]; [4; 2; 1; 0]; [3]] = Ok (R', cs') /\ rf_part R' = [[5]; [0]; [3]; [1; 2; 4]] /\ c_calls cs' = 2).
Proof.
  do 2 eexists. split; [vm_compute; reflexivity|]. split; [reflexivity|]. split; [reflexivity|].
  split; [reflexivity|]. split; [reflexivity|]. do 2 eexists. split; [vm_compute; reflexivity|]. split; reflexivity.
Qed.

(** ** C19 *)
Theorem C19_split : forall I scen inf p l r, acc_feasible I scen inf p -> acc_subsets scen p = (l, r) ->
  Permutation (l ++ r) scen /\ (exists s, In s l /\ In s inf) /\ (exists s, In s r /\ In s inf).
Proof. exact acc_sides. Qed.
Print Assumptions C19_split.

Theorem C19_duality_bound : forall I scen inf p l r x, wf_inst I -> Forall (fun s => s < i_k I) scen ->
  acc_feasible I scen inf p -> acc_subsets scen p = (l, r) -> in_box (i_n I) x ->
  subset_sat I 0 x l \/ subset_sat I 0 x r -> (obj I x <= ap_alpha p)%Q.
Proof. exact acc_cost_bound. Qed.
Print Assumptions C19_duality_bound.

(** The model is feasible whenever it is asked. *)
Theorem C19_feasible : forall I scen inf, wf_inst I -> NoDup inf -> incl inf scen -> 2 <= length inf ->
  acc_feasible I scen inf (acc_ref_point I scen inf).
Proof. exact acc_ref_feasible. Qed.
Print Assumptions C19_feasible.

Example C19_example :
  acc_subsets [4; 1; 2; 0] (acc_ref_point exI6 [4; 1; 2; 0] [1; 2; 0]) = ([1], [4; 2; 0]) /\
  ap_alpha (acc_ref_point exI6 [4; 1; 2; 0] [1; 2; 0]) = 1%Q.
Proof. vm_compute. split; reflexivity. Qed.

(** ** C20 *)
Theorem C20_largest_free : forall cost vUB,
  (exists c v, In (c, v) cost /\ ext_leb (Fin v) vUB = true /\ - 1000000 <= v)%Q ->
  exists c v pre post, select_split cost vUB = Ok c /\ cost = pre ++ (c, v) :: post /\
    ext_leb (Fin v) vUB = true /\
    (forall c' v', In (c', v') pre -> ext_leb (Fin v') vUB = true -> (v' <= v)%Q) /\
    (forall c' v', In (c', v') post -> ext_leb (Fin v') vUB = true -> (v' < v)%Q).
Proof. exact select_split_free. Qed.
Print Assumptions C20_largest_free.

Theorem C20_smallest : forall cost vUB, cost <> [] ->
  (forall c v, In (c, v) cost -> ext_leb (Fin v) vUB = false) ->
  exists c v pre post, select_split cost vUB = Ok c /\ cost = pre ++ (c, v) :: post /\
    (forall c' v', In (c', v') pre -> (v < v')%Q) /\ (forall c' v', In (c', v') post -> (v <= v')%Q).
Proof. exact select_split_none. Qed.
Print Assumptions C20_smallest.

Theorem C20_key_error : forall cost vUB,
  (exists c v, In (c, v) cost /\ ext_leb (Fin v) vUB = true) ->
  (forall c v, In (c, v) cost -> ext_leb (Fin v) vUB = true -> (v < - 1000000)%Q) ->
  select_split cost vUB = Err KeyError.
Proof. exact select_split_keyerror. Qed.
Print Assumptions C20_key_error.

(** The subset that is split is the selected one. *)
Theorem C20_split_selected : forall acc inf vUB st cs st' cs',
  perform_accurate_split acc inf vUB st cs = Ok (st', cs') ->
  exists c l r, select_split (c_cost cs) vUB = Ok c /\ c < length (r_part st) /\
    dget c (c_left cs) = Ok l /\ dget c (c_right cs) = Ok r /\
    r_part st' = upd c l (r_part st) ++ [r] /\ r_cnt st' = S (r_cnt st).
Proof. exact perform_selected. Qed.
Print Assumptions C20_split_selected.

Example C20_example :
  select_split [(0, 3%Q); (4, 7%Q); (2, 7%Q); (1, 9%Q)] (Fin 8) = Ok 2 /\
  select_split [(0, 9%Q); (4, 8%Q); (2, 8%Q)] (Fin 7) = Ok 4 /\
  select_split [(0, (- 2000000)%Q)] (Fin 7) = Err KeyError /\
  select_split [] (Fin 7) = Err ValueError.
Proof. vm_compute. repeat split. Qed.

(** ** C55 *)
Theorem C55_saved_bounds : forall evs,
  (forall i, S i < length (saved_bounds evs) ->
     ~ same_bounds (nth i (saved_bounds evs) (0, 0, 0)%Q) (nth (S i) (saved_bounds evs) (0, 0, 0)%Q)) /\
  (Forall (fun r => exists ev, In ev evs /\ r = neg_event ev) (saved_bounds evs)) /\
  (forall pre ev post, evs = pre ++ ev :: post ->
     (exists d r more, saved_bounds (pre ++ [ev]) = d ++ [r] /\ same_bounds r (neg_event ev) /\
        saved_bounds evs = d ++ r :: more)).
Proof. exact saved_bounds_facts. Qed.
Print Assumptions C55_saved_bounds.

Example C55_example :
  saved_bounds [(1, 5, 9); (2, 5, 9); (3, 6, 9); (4, 6, 8); (5, 6, 8)]%Q =
  [(1, - 5, - 9); (3, - 6, - 9); (4, - 6, - 8)]%Q.
Proof. vm_compute. reflexivity. Qed.
