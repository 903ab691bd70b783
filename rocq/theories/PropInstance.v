(** Properties C01-C10: instances, partitions, relaxation. *)
From Verif Require Import Base Spec Instance InstanceFacts PartitionFacts Ex.

(** ** C01 *)
Theorem C01_is_feasible : forall norm I x ok nb t flags infeas,
  is_feasible norm I x = (ok, nb, t, flags, infeas) ->
  (ok = true <-> (Qn (nviol I tol6 x) <= i_eps I * Qn (i_k I))%Q) /\
  nb = nviol I tol6 x /\
  t = (i_eps I * Qn (i_k I))%Q /\
  length flags = i_k I /\ length infeas = i_k I /\
  forall s, s < i_k I ->
    (nth s flags false = true <-> ~ sat I tol6 x s) /\
    length (nth s infeas []) =
      count (fun i => Qlt_bool (rhs I s i + tol6) (dot (row I s i) x)) (seq 0 (i_m I)) /\
    (nth s infeas [] = [] <-> sat I tol6 x s).
Proof. exact is_feasible_spec. Qed.
Print Assumptions C01_is_feasible.

Example C01_example :
  fst (is_feasible norm1 exI [1; 1]%Q) = (false, 2, 3 # 3, [true; false; true]) /\
  fst (is_feasible norm1 exI [1; 0]%Q) = (true, 0, 3 # 3, [false; false; false]).
Proof. vm_compute. split; reflexivity. Qed.

(** ** C02 *)
Theorem C02_check_feasibility : forall norm, (forall r, (0 <= norm r)%Q) ->
  forall I x ok f, check_feasibility norm I x = (ok, f) ->
  (ok = true <-> (Qn (nviol I tol6 x) <= i_eps I * Qn (i_k I))%Q) /\
  StronglySorted lt (f_infeasible f) /\
  (forall s, In s (f_infeasible f) <-> s < i_k I /\ ~ sat I tol6 x s) /\
  length (get_feasible_scenarios f) = i_k I /\
  (forall s, s < i_k I -> (nth s (get_feasible_scenarios f) false = true <-> sat I tol6 x s)) /\
  length (f_infeasible f) = nviol I tol6 x.
Proof. exact check_feasibility_spec. Qed.
Print Assumptions C02_check_feasibility.

Example C02_example :
  check_feasibility norm1 exI [1; 1]%Q =
  (false, mkFeas [true; false; true] [0; 2] [100000 # 300000; 0; 100000 # 300000]%Q).
Proof. vm_compute. reflexivity. Qed.

(** ** C03 *)
Theorem C03_tolerance_binary : forall rows eps I x norm,
  parse rows false eps = Ok I -> is_bin x ->
  forall s, is_scenario_infeasible norm I x s = true <-> ~ sat I 0 x s.
Proof. exact parse_tolerance. Qed.
Print Assumptions C03_tolerance_binary.

Example C03_example : exists I, parse ex_rows false (1 # 3) = Ok I /\
  map (is_scenario_infeasible norm1 I [1; 1]%Q) [0; 1; 2] = [true; false; true].
Proof. exists exI. vm_compute. split; reflexivity. Qed.

(** The same statement for continuous variables is false: a violated scenario can be
    reported as satisfied. *)
Theorem C03_tolerance_continuous_refuted : exists rows eps I x,
  parse rows true eps = Ok I /\ in_dom I x /\ ~ sat I 0 x 0 /\
  forall norm, is_scenario_infeasible norm I x 0 = false.
Proof. exact tolerance_continuous. Qed.
Print Assumptions C03_tolerance_continuous_refuted.

(** ** C04 *)
Theorem C04_packing_monotone : forall norm I x y,
  Forall (Forall (Forall (fun a => 0 <= a)%Q)) (i_A I) -> Forall2 Qle y x ->
  (fst (check_feasibility norm I x) = true -> fst (check_feasibility norm I y) = true) /\
  incl (f_infeasible (snd (check_feasibility norm I y)))
       (f_infeasible (snd (check_feasibility norm I x))).
Proof. exact packing_monotone. Qed.
Print Assumptions C04_packing_monotone.

Example C04_example : Forall (Forall (Forall (fun a => 0 <= a)%Q)) (i_A exI) /\
  Forall2 Qle [1; 0]%Q [1; 1]%Q.
Proof. split; [|repeat constructor; discriminate]. vm_compute. repeat constructor; discriminate. Qed.

(** ** C05 *)
Theorem C05_generator_round_trip : forall n m c samples b cont eps,
  0 < length samples ->
  Forall (fun M => length M = m /\ Forall (fun r => length r = n) M) samples ->
  length b = m ->
  parse (gen_rows n m c samples b) cont eps =
    Ok (mkInst n m (length samples) cont eps (map round1 c)
          (map (map (map (fun v => round1 (gen_entry v)))) samples)
          (repeat (map round1 b) (length samples))).
Proof. exact gen_parse. Qed.
Print Assumptions C05_generator_round_trip.

Theorem C05_generated_nonneg_uniform : forall v k, 0 < k ->
  (0 <= round1 (gen_entry v))%Q /\ (qsum (uniform k) == 1)%Q /\ length (uniform k) = k.
Proof. exact gen_nonneg_uniform. Qed.
Print Assumptions C05_generated_nonneg_uniform.

Example C05_example :
  gen_rows 2 1 [1; 2]%Q [ [[1 # 3; - (1)]]; [[2; 3]] ]%Q [5%Q] =
  [[2; 1; 2]; [1; 2]; [3333 # 10000; 0 # 10000]; [20000 # 10000; 30000 # 10000]; [5]]%Q.
Proof. vm_compute. reflexivity. Qed.

(** ** C06 *)
Theorem C06_rounding : forall q q',
  (round1 q - (1 # 20) <= q /\ q <= round1 q + (1 # 20) /\
   round1 (round1 q) == round1 q /\ (q <= q' -> round1 q <= round1 q'))%Q /\
  exists z, (round1 q == inject_Z z / 10)%Q.
Proof. exact rounding. Qed.
Print Assumptions C06_rounding.

Theorem C06_rounding_constraint : forall u x b,
  length u = length x -> Forall (fun v => 0 <= v /\ v <= 1)%Q x ->
  (dot (map round1 u) x <= round1 b)%Q ->
  (dot u x <= b + (Qn (length u) + 1) * (1 # 20))%Q.
Proof. exact round_constraint. Qed.
Print Assumptions C06_rounding_constraint.

(** The rounded constraint can hold although the one of the file does not. *)
Example C06_example :
  (dot (map round1 [104 # 100; 104 # 100]) [1; 1] <= round1 (195 # 100))%Q /\
  (195 # 100 < dot [104 # 100; 104 # 100] [1; 1])%Q.
Proof. vm_compute. split; [discriminate|reflexivity]. Qed.

(** ** C07 *)
Theorem C07_partition_rows : forall I proba p V,
  wf_inst I -> length proba = i_k I ->
  Forall (fun S => S <> [] /\ Forall (fun s => s < i_k I) S) p ->
  ~ (qsum (map (min_proba proba) p) == 0)%Q ->
  load_partition I proba (length p) p = Ok V ->
  v_k V = length p /\
  forall c, c < length p ->
    v_m V c = i_m I * length (nth c p []) /\
    length (nth c (v_b V) []) = i_m I * length (nth c p []) /\
    (forall j, j < v_m V c ->
       v_row V c j = row I (nth (j / i_m I) (nth c p []) 0) (j mod i_m I) /\
       v_rhs V c j = rhs I (nth (j / i_m I) (nth c p []) 0) (j mod i_m I)) /\
    (forall tau x, (forall j, j < v_m V c -> (dot (v_row V c j) x <= v_rhs V c j + tau)%Q) <->
                   subset_sat I tau x (nth c p [])).
Proof. exact load_partition_rows. Qed.
Print Assumptions C07_partition_rows.

Example C07_example : exists V,
  load_partition exI (uniform 3) 2 [[2; 0]; [1]] = Ok V /\
  v_row V 0 1 = row exI 2 1 /\ v_row V 0 2 = row exI 0 0 /\ v_m V 0 = 4 /\ v_m V 1 = 2.
Proof. eexists. split; [vm_compute; reflexivity|]. vm_compute. repeat split. Qed.

(** ** C08 *)
Theorem C08_probabilities : forall I p,
  wf_inst I -> valid_partition (i_k I) p ->
  exists V, load_partition I (uniform (i_k I)) (length p) p = Ok V /\
    v_k V = length p /\ length (v_p V) = length p /\
    Forall (fun q => 0 < q)%Q (v_p V) /\ (qsum (v_p V) == 1)%Q /\
    forall z, length z = length p -> is_bin z ->
      ((1 - v_eps V <= dot (v_p V) z)%Q <->
       (0 <= i_eps I)%Q /\ count (fun v => Qeq_bool v 0) z <= tolerated I).
Proof. exact probabilities. Qed.
Print Assumptions C08_probabilities.

Example C08_example : exists V, load_partition exI (uniform 3) 2 [[2; 0]; [1]] = Ok V /\
  Qle_bool (1 - v_eps V) (dot (v_p V) [1; 0]%Q) = true /\
  Qle_bool (1 - v_eps V) (dot (v_p V) [0; 0]%Q) = false.
Proof. eexists. split; [vm_compute; reflexivity|]. vm_compute. split; reflexivity. Qed.

(** ** C09 *)
Theorem C09_relaxation_any_proba : forall I proba tau x p V,
  wf_inst I -> length proba = i_k I -> Forall (fun q => 0 <= q)%Q proba ->
  valid_partition (i_k I) p -> ~ (qsum (map (min_proba proba) p) == 0)%Q ->
  load_partition I proba (length p) p = Ok V ->
  (viol_mass I proba tau x (seq 0 (i_k I)) <= i_eps I)%Q ->
  (1 - v_eps V <= dot (v_p V) (z_of I tau x p))%Q.
Proof. exact relaxation_general. Qed.
Print Assumptions C09_relaxation_any_proba.

Theorem C09_relaxation : forall I tau x p,
  valid_partition (i_k I) p -> cc_feasible I tau x -> part_feasible I p tau x.
Proof. exact relaxation. Qed.
Print Assumptions C09_relaxation.

Theorem C09_upper_bound : forall I p v,
  valid_partition (i_k I) p ->
  (forall x, part_feasible I p 0 x -> (obj I x <= v)%Q) -> upper_bound I v.
Proof. exact relaxation_upper_bound. Qed.
Print Assumptions C09_upper_bound.

Example C09_example : valid_partition (i_k exI) [[2; 0]; [1]] /\
  nviol exI 0 [1; 1]%Q = 2 /\ nunsat exI 0 [1; 1]%Q [[2; 0]; [1]] = 1.
Proof.
  split; [split|vm_compute; split; reflexivity].
  - simpl. apply perm_trans with [0; 2; 1]; [constructor|repeat constructor].
  - repeat constructor; discriminate.
Qed.

(** ** C10 *)
Theorem C10_refinement_tightens : forall I tau x p q,
  valid_partition (i_k I) p -> valid_partition (i_k I) q -> refines q p ->
  part_feasible I q tau x -> part_feasible I p tau x.
Proof. exact refinement_tightens. Qed.
Print Assumptions C10_refinement_tightens.

Theorem C10_finest_exact : forall I tau x p,
  valid_partition (i_k I) p -> Forall (fun S => length S = 1) p ->
  (part_feasible I p tau x <-> cc_feasible I tau x).
Proof. exact finest_exact. Qed.
Print Assumptions C10_finest_exact.

Example C10_example :
  valid_partition 3 (map (fun s => [s]) (seq 0 3)) /\
  refines (map (fun s => [s]) (seq 0 3)) [[2; 0]; [1]] /\
  nunsat exI 0 [1; 1]%Q (map (fun s => [s]) (seq 0 3)) = 2 /\
  nunsat exI 0 [1; 1]%Q [[2; 0]; [1]] = 1.
Proof.
  split; [apply singletons_valid|split].
  - repeat constructor; [exists [2; 0]|exists [1]|exists [2; 0]]; split; simpl; auto;
      intros s [<-|[]]; simpl; auto.
  - vm_compute. split; reflexivity.
Qed.
