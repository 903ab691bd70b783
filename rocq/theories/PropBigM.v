(** Properties C29-C36 (big M's) and C28 for the big M model. *)
From Verif Require Import Base BaseFacts Spec Instance OptModels Initial Bounds Knapsack KnapsackFacts Violations
  ViolationsFacts ViolTable BigM BigMFacts BigMFacts2 SongFacts BigMEx Ex.

(** ** C28, big M model *)
Theorem C28_pruning_big_M : forall I p V lz Ms st costs v g t m0 m1 x z,
  wf_inst I -> valid_partition (i_k I) p ->
  load_partition I (uniform (i_k I)) (length p) p = Ok V ->
  length costs = length p ->
  (forall c y, c < length p -> det_feasible I (nth c p []) 0 y -> (obj I y <= nth c costs 0)%Q) ->
  (forall s i, s < v_k V -> i < v_m V s -> (dot (v_row V s i) x - v_rhs V s i <= nth i (nth s Ms []) 0)%Q) ->
  cclp_model V true lz Ms st [] g t = Ok m0 ->
  cclp_model V true lz Ms st (prune_indices costs (Fin v)) g t = Ok m1 ->
  (model_ok 0 m1 x z -> model_ok 0 m0 x z) /\
  (model_ok 0 m0 x z -> ~ model_ok 0 m1 x z -> (obj I x <= v - (1 # 1000))%Q).
Proof. exact prune_big_m. Qed.
Print Assumptions C28_pruning_big_M.

(** ** C29 *)
Theorem C29_naive : forall I V, wf_inst I -> packing I -> is_view I V ->
  bigM_shape V (naive_all V (v_k V)) /\
  forall s i, s < v_k V -> i < v_m V s ->
  box_max (v_row V s i) (v_rhs V s i) (nth i (nth s (naive_all V (v_k V)) []) 0%Q).
Proof. exact naive_max. Qed.
Print Assumptions C29_naive.

Theorem C29_negative_cuts : exists m0 m1,
  wf_inst exNeg /\ load_partition exNeg (uniform 2) 2 [[0]; [1]] = Ok exNegV /\
  cclp_model exNegV false false [] [] [] 0 1 = Ok m0 /\
  cclp_model exNegV true false (naive_all exNegV 2) [] [] 0 1 = Ok m1 /\
  cc_feasible exNeg 0 [0; 1]%Q /\ model_ok 0 m0 [0; 1]%Q [0; 1]%Q /\
  forall z, ~ model_ok 0 m1 [0; 1]%Q z.
Proof. exact naive_cuts. Qed.
Print Assumptions C29_negative_cuts.

Example C29_example :
  map (map Qred) (naive_all (view_inst exI (uniform 3)) 3) = [[0; 1]; [0; 0]; [1; 1]]%Q.
Proof. vm_compute. reflexivity. Qed.

(** ** C30 *)
Theorem C30_knapsack : forall argsort r d w C, argsort_ok argsort ->
  length w = length r -> Forall (fun a => 0 <= a)%Q w ->
  Forall2 (fun a b => a == 0 -> 0 <= b)%Q w r -> ext_leb (Fin 0) C = true ->
  exists v, solve_continuous_knapsack argsort r d w C = Ok v /\ knap_max r d w C v.
Proof. intros argsort r d w C H. exact (knapsack_exact argsort H r d w C). Qed.
Print Assumptions C30_knapsack.

Theorem C30_negative_weight_refuted :
  (exists v, solve_continuous_knapsack argsort_ref [1; 1]%Q 0 [1; - (1)]%Q (Fin 1) = Ok v /\
   ~ knap_upper [1; 1]%Q 0 [1; - (1)]%Q (Fin 1) v) /\
  solve_continuous_knapsack argsort_ref [1; 1]%Q 0 [- (1); - (1)]%Q (Fin 1) = Err AssertionError.
Proof. exact (conj greedy_negative greedy_assertion). Qed.
Print Assumptions C30_negative_weight_refuted.

Example C30_example :
  rmap (fun C => rbind (solve_continuous_knapsack argsort_ref [6; 5; 4; 1]%Q 2 [3; 2; 2; 0]%Q C) (fun v => Ok (Qred v)))
    [Fin 0; Fin 3; Fin 5; PInf]%Q = Ok [- (1); 6; 10; 14]%Q.
Proof. vm_compute. reflexivity. Qed.

(** ** C31 *)
Theorem C31_continuous : forall argsort solve I V vUB t,
  argsort_ok argsort -> wf_inst I -> packing I -> is_view I V ->
  i_cont I = true -> ext_leb (Fin 0) vUB = true ->
  exists Ms, belotti_all argsort solve V vUB (v_k V) t = (Ok Ms, t) /\ bigM_shape V Ms /\
  forall s i, s < v_k V -> i < v_m V s ->
    knap_max (v_row V s i) (v_rhs V s i) (i_c I) vUB (nth i (nth s Ms []) 0%Q) /\
    (nth i (nth s Ms []) 0 <= nth i (nth s (naive_all V (v_k V)) []) 0)%Q.
Proof. exact belotti_continuous. Qed.
Print Assumptions C31_continuous.

Theorem C31_valid : forall tau argsort solve I V vUB t Ms t',
  argsort_ok argsort -> wf_inst I -> packing I -> is_view I V ->
  ext_leb (Fin 0) vUB = true -> (forall t m, outcome_ok tau m (solve t m)) ->
  belotti_all argsort solve V vUB (v_k V) t = (Ok Ms, t') ->
  bigM_shape V Ms /\
  bigM_valid V Ms (fun x => in_dom I x /\ ext_leb (Fin (obj I x)) vUB = true).
Proof. exact belotti_valid. Qed.
Print Assumptions C31_valid.

Theorem C31_binary : forall argsort solve I V vUB t,
  wf_inst I -> packing I -> is_view I V ->
  i_cont I = false -> 0 < i_n I -> ext_leb (Fin 0) vUB = true -> (forall t m, m_cont m = false -> outcome_exact m (solve t m)) ->
  exists Ms t', belotti_all argsort solve V vUB (v_k V) t = (Ok Ms, t') /\ bigM_shape V Ms /\
  forall s i, s < v_k V -> i < v_m V s ->
    (exists x, in_dom I x /\ ext_leb (Fin (obj I x)) vUB = true /\
       (dot (v_row V s i) x - v_rhs V s i == nth i (nth s Ms []) 0)%Q) /\
    (forall x, in_dom I x -> ext_leb (Fin (obj I x)) vUB = true ->
       (dot (v_row V s i) x - v_rhs V s i <= nth i (nth s Ms []) 0)%Q) /\
    (nth i (nth s Ms []) 0 <= nth i (nth s (naive_all V (v_k V)) []) 0)%Q.
Proof. exact belotti_binary. Qed.
Print Assumptions C31_binary.

Theorem C31_negative_objective : exists Ms,
  wf_inst exNegC /\ Forall (Forall (Forall (fun a => 0 <= a)%Q)) (i_A exNegC) /\
  belotti_all argsort_ref (fun _ _ => NoSolution) (view_inst exNegC (uniform 2)) (Fin 1) 2 0 = (Ok Ms, 0) /\
  in_dom exNegC [1; 1]%Q /\ (obj exNegC [1; 1] <= 1)%Q /\
  (nth 0 (nth 0 Ms []) 0 < dot (row exNegC 0 0) [1; 1] - rhs exNegC 0 0)%Q.
Proof. exact belotti_negative. Qed.
Print Assumptions C31_negative_objective.

Example C31_example :
  (let '(r, t) := belotti_all argsort_ref (fun _ _ => NoSolution) (view_inst exIc (uniform 3)) (Fin 6)%Q 3 0 in
   (rbind r (fun Ms => Ok (map (map Qred) Ms)), t)) =
  (Ok [[- (3 # 5); 1 # 4]; [0; - (3 # 5)]; [- (1 # 5); 1]]%Q, 0).
Proof. vm_compute. reflexivity. Qed.

(** ** C32 *)
Theorem C32_compiled_table : forall sort I, sort_spec sort -> wf_inst I -> Forall (Forall nonneg) (i_A I) ->
  forall s t i, s < i_k I -> t < i_k I -> i < i_m I ->
  exists v, vget (compute_all_violations sort I) (i_k I) (i_m I) s t i = Fin v /\
    forall x, in_box (i_n I) x -> sat I 0 x t -> (dot (row I s i) x - rhs I s i <= v)%Q.
Proof. exact compiled_finite. Qed.
Print Assumptions C32_compiled_table.

Example C32_example : sort_spec sort_ref /\
  map (fun e => match e with Fin q => Fin (Qred q) | _ => e end) (compute_all_violations sort_ref exI) =
  [Fin (- (1 # 2)); Fin 0; Fin 0; Fin 1; Fin (- (2 # 3)); Fin (1 # 2); Fin 0; Fin (- (1 # 2)); Fin 0; Fin 0;
   Fin 0; Fin (- (1 # 2)); Fin 0; Fin 1; Fin 1; Fin 1; Fin 0; Fin 0]%Q.
Proof. split; [exact sort_ref_spec|]. vm_compute. reflexivity. Qed.

(** ** C33 *)
Theorem C33_strict_weak_order : forall p w, nonneg p -> nonneg w ->
  strict_weak_order (fun _ => True) (comp p w).
Proof. exact comp_swo. Qed.
Print Assumptions C33_strict_weak_order.

Theorem C33_negative_cycle : exists p w a b c,
  comp p w a b = true /\ comp p w b c = true /\ comp p w c a = true /\
  ~ strict_weak_order (fun _ => True) (comp p w).
Proof. exact comp_cycle. Qed.
Print Assumptions C33_negative_cycle.

Example C33_example :
  sort_ref (comp [3; 0; 0; 5; 2]%Q [1; 0; 4; 0; 1]%Q) [0; 1; 2; 3; 4] = [3; 0; 4; 2; 1].
Proof. vm_compute. reflexivity. Qed.

(** ** C34 *)
Theorem C34_agreement : forall argsort sort I rho,
  argsort_ok argsort -> sort_spec sort -> wf_inst I -> packing I ->
  2 <= i_m I -> Forall (Forall no_tiny) (i_A I) -> (0 <= rho)%Q ->
  (forall s t i l j, s < i_k I -> t < i_k I -> i < i_m I -> l < i_m I -> j < i_n I ->
     (0 < nth j (row I t l) 0)%Q -> (nth j (row I s i) 0 <= rho * nth j (row I t l) 0)%Q) ->
  exists T, python_violations argsort I = Ok T /\
  forall s t i, s < i_k I -> t < i_k I -> i < i_m I ->
  exists u v, vget T (i_k I) (i_m I) s t i = Fin u /\
    vget (compute_all_violations sort I) (i_k I) (i_m I) s t i = Fin v /\
    (u <= v /\ v <= u + rho * (1 # 1000000))%Q.
Proof. exact tables_agree. Qed.
Print Assumptions C34_agreement.

Theorem C34_python_exact : forall argsort, argsort_ok argsort -> forall I, wf_inst I -> packing I ->
  exists T, python_violations argsort I = Ok T /\ length T = i_k I * i_k I * i_m I /\
  forall s t i, s < i_k I -> t < i_k I -> i < i_m I ->
  exists v, vget T (i_k I) (i_m I) s t i = Fin v /\ min_violation I s t i v.
Proof. exact python_table. Qed.
Print Assumptions C34_python_exact.

Theorem C34_dominates : forall argsort sort I,
  argsort_ok argsort -> sort_spec sort -> wf_inst I -> packing I ->
  exists T, python_violations argsort I = Ok T /\
  forall s t i, s < i_k I -> t < i_k I -> i < i_m I ->
  exists u v, vget T (i_k I) (i_m I) s t i = Fin u /\
    vget (compute_all_violations sort I) (i_k I) (i_m I) s t i = Fin v /\ (u <= v)%Q.
Proof. exact compiled_dominates. Qed.
Print Assumptions C34_dominates.

Theorem C34_single_constraint : forall D, (0 <= D)%Q ->
  wf_inst (one_row D) /\ packing (one_row D) /\
  forall argsort sort, argsort_ok argsort -> sort_spec sort ->
  exists T u, python_violations argsort (one_row D) = Ok T /\
    vget T 1 1 0 0 0 = Fin u /\ (u == - D)%Q /\
    vget (compute_all_violations sort (one_row D)) 1 1 0 0 0 = Fin 0.
Proof. exact diagonal_differs. Qed.
Print Assumptions C34_single_constraint.

Example C34_example :
  rbind (python_violations argsort_ref exI) (fun T => Ok (map (fun e => match e with Fin q => Fin (Qred q) | _ => e end) T)) =
  Ok (map (fun e => match e with Fin q => Fin (Qred q) | _ => e end) (compute_all_violations sort_ref exI)).
Proof. vm_compute. reflexivity. Qed.

(** ** C35 *)
Theorem C35_scenarios : forall sort, sort_spec sort -> forall I, wf_inst I -> Forall (Forall nonneg) (i_A I) ->
  (0 <= i_eps I)%Q -> let tab := compute_all_violations sort I in
  (0 < i_m I -> i_k I <= tolerated I + 1 -> song_all I tab None (i_eps I) (i_k I) = Err IndexError) /\
  (tolerated I + 1 < i_k I -> exists Ms, song_all I tab None (i_eps I) (i_k I) = Ok (map (map Fin) Ms) /\
     length Ms = i_k I /\ (forall s, s < i_k I -> length (nth s Ms []) = i_m I) /\
     forall s i x, s < i_k I -> i < i_m I -> in_box (i_n I) x -> nviol I 0 x <= tolerated I ->
       (dot (row I s i) x - rhs I s i <= nth i (nth s Ms []) 0)%Q).
Proof. exact song_plain. Qed.
Print Assumptions C35_scenarios.

Theorem C35_subsets : forall sort, sort_spec sort -> forall I, wf_inst I -> Forall (Forall nonneg) (i_A I) ->
  forall p V, valid_partition (i_k I) p -> load_partition I (uniform (i_k I)) (length p) p = Ok V -> (0 <= i_eps I)%Q ->
  let tab := compute_all_violations sort I in
  (0 < i_m I -> length p <= tolerated I + 1 -> song_all I tab (Some p) (v_eps V) (length p) = Err IndexError) /\
  (tolerated I + 1 < length p -> exists Ms, song_all I tab (Some p) (v_eps V) (length p) = Ok (map (map Fin) Ms) /\
     bigM_shape V Ms /\
     bigM_valid V Ms (fun x => in_box (i_n I) x /\ nunsat I 0 x p <= tolerated I)).
Proof. exact song_part. Qed.
Print Assumptions C35_subsets.

(** Any index from floor(eps N) on is valid: the code uses floor(eps N) + 1. *)
Theorem C35_quantile : forall a L f q M, count (fun e => negb (ext_leb a e)) L <= f -> f <= q ->
  geti (ext_sort L) q = Ok M -> ext_leb a M = true.
Proof. exact quantile_valid. Qed.
Print Assumptions C35_quantile.

Example C35_example :
  song_all exI6 (compute_all_violations sort_ref exI6) None (1 # 3) 6 =
    song_all exI6 (compute_all_violations sort_ref exI6) (Some [[0]; [1]; [2]; [3]; [4]; [5]]) (1 # 3) 6 /\
  rbind (song_all exI6 (compute_all_violations sort_ref exI6) (Some [[0; 4]; [1]; [2]; [3; 5]]) (1 # 2) 4)
    (fun Ms => Ok (map (map (fun e => match e with Fin q => Fin (Qred q) | _ => e end)) Ms)) =
    Ok [[Fin 1; Fin (- (1 # 3))]; [Fin 0]; [Fin 1]; [Fin 0; Fin (- (1 # 3))]]%Q /\
  song_all exI6 (compute_all_violations sort_ref exI6) (Some [[0; 4; 1]; [2]; [3; 5]]) (2 # 3) 3 = Err IndexError.
Proof. vm_compute. repeat split. Qed.

(** ** C36 *)
Theorem C36_equivalence : forall V Ms Ms' lz st pr g t m1 m0 tau x z, (0 <= tau)%Q ->
  (forall s i, s < v_k V -> i < v_m V s -> (dot (v_row V s i) x - v_rhs V s i <= nth i (nth s Ms []) 0)%Q) ->
  cclp_model V true lz Ms st pr g t = Ok m1 -> cclp_model V false lz Ms' st pr g t = Ok m0 ->
  (model_ok tau m1 x z <-> model_ok tau m0 x z).
Proof. exact bigM_equiv. Qed.
Print Assumptions C36_equivalence.

Theorem C36_builds : forall V Ms Ms' lz st pr g t m0, bigM_shape V Ms ->
  cclp_model V false lz Ms' st pr g t = Ok m0 -> exists m1, cclp_model V true lz Ms st pr g t = Ok m1.
Proof. exact @bigM_builds. Qed.
Print Assumptions C36_builds.

(** A constraint of negative big M is dropped for continuous variables and kept for binary ones. *)
Example C36_example :
  let Ms := [[1; - (1)]; [0; 0]; [1; 1]]%Q in
  (exists m, cclp_model (view_inst exIc (uniform 3)) true false Ms [] [] 0 1 = Ok m /\ length (m_cstrs m) = 6) /\
  (exists m, cclp_model (view_inst exI (uniform 3)) true false Ms [] [] 0 1 = Ok m /\ length (m_cstrs m) = 7 /\
     nth 1 (m_cstrs m) (CFix0 0) = CLe (row exI 0 1) (rhs exI 0 1 + - (1))%Q).
Proof. cbv zeta. split; eexists; (split; [reflexivity|]); [reflexivity|split; reflexivity]. Qed.
