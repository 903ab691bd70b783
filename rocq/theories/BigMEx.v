(** Witnesses for the big M properties, and pruning in the big M model. *)
From Verif Require Import Base BaseFacts Spec Instance InstanceFacts PartitionFacts OptModels OptFacts Bounds
  BoundsFacts Knapsack KnapsackFacts Violations ViolationsFacts ViolTable BigM BigMFacts BigMFacts2 SongFacts Ex.

(** ** Pruning (C28) with big M's *)
Lemma cclp_false_of_true V lz Ms Ms' st pr g t m1 : cclp_model V true lz Ms st pr g t = Ok m1 ->
  exists m0, cclp_model V false lz Ms' st pr g t = Ok m0.
Proof.
  unfold cclp_model. destruct (negb _); [discriminate|]. cbn [rbind].
  destruct (all_big_m_rows V Ms); cbn [rbind]; [|discriminate].
  destruct (negb (forallb _ pr)); [discriminate|]. eauto.
Qed.

Lemma prune_big_m I p V lz Ms st costs v g t m0 m1 x z :
  wf_inst I -> valid_partition (i_k I) p ->
  load_partition I (uniform (i_k I)) (length p) p = Ok V ->
  length costs = length p ->
  (forall c y, c < length p -> det_feasible I (nth c p []) 0 y -> (obj I y <= nth c costs 0)%Q) ->
  (forall s i, s < v_k V -> i < v_m V s -> (dot (v_row V s i) x - v_rhs V s i <= nth i (nth s Ms []) 0)%Q) ->
  cclp_model V true lz Ms st [] g t = Ok m0 ->
  cclp_model V true lz Ms st (prune_indices costs (Fin v)) g t = Ok m1 ->
  (model_ok 0 m1 x z -> model_ok 0 m0 x z) /\
  (model_ok 0 m0 x z -> ~ model_ok 0 m1 x z -> (obj I x <= v - (1 # 1000))%Q).
Proof.
  intros HW Hp HL HC Hd HV H0 H1.
  destruct (cclp_false_of_true _ _ _ [] _ _ _ _ _ H0) as (m0' & H0'). destruct (cclp_false_of_true _ _ _ [] _ _ _ _ _ H1) as (m1' & H1').
  rewrite (bigM_equiv V Ms [] lz st [] g t m0 m0' 0 x z (Qle_refl 0) HV H0 H0').
  rewrite (bigM_equiv V Ms [] lz st _ g t m1 m1' 0 x z (Qle_refl 0) HV H1 H1').
  eapply prune_indicator; eassumption.
Qed.

(** ** Negative data *)
Definition exNeg : inst :=
  mkInst 2 1 2 false (1 # 2) [1; 1]%Q [[[- (1); 1]]; [[1; 0]]]%Q [[0]; [1]]%Q.
Definition exNegV : view :=
  match load_partition exNeg (uniform 2) 2 [[0]; [1]] with Ok V => V | Err _ => view_inst exNeg [] end.
Lemma naive_cuts : exists m0 m1,
  wf_inst exNeg /\ load_partition exNeg (uniform 2) 2 [[0]; [1]] = Ok exNegV /\
  cclp_model exNegV false false [] [] [] 0 1 = Ok m0 /\
  cclp_model exNegV true false (naive_all exNegV 2) [] [] 0 1 = Ok m1 /\
  cc_feasible exNeg 0 [0; 1]%Q /\ model_ok 0 m0 [0; 1]%Q [0; 1]%Q /\
  forall z, ~ model_ok 0 m1 [0; 1]%Q z.
Proof.
  eexists _, _.
  assert (W : wf_inst exNeg) by (unfold wf_inst; cbn; repeat split; auto; repeat constructor).
  split; [assumption|]. split; [reflexivity|]. split; [reflexivity|]. split; [reflexivity|].
  assert (D : in_dom exNeg [0; 1]%Q).
  { split; [split; [reflexivity|constructor; [lra|constructor; [lra|constructor]]]|intros _].
    constructor; [left; lra|constructor; [right; lra|constructor]]. }
  split; [split; [assumption|vm_compute; discriminate]|]. split.
  - split; [exact D|]. split; [reflexivity|]. split; [constructor; [left; lra|constructor; [right; lra|constructor]]|].
    constructor; [intro E; exfalso; cbn in E; lra|]. constructor; [intros _; vm_compute; discriminate|].
    constructor; [vm_compute; discriminate|]. constructor.
  - intros z (_ & _ & _ & F). inversion F as [|? ? F1 _]; subst. unfold cstr_ok in F1.
    assert (E1 : (dot (v_row exNegV 0 0) [0; 1] == 1)%Q) by reflexivity.
    set (M := nth 0 (nth 0 (naive_all exNegV 2) []) 0%Q).
    assert (EM : (M == 0)%Q) by reflexivity.
    assert (F2 : (dot (v_row exNegV 0 0) [0; 1] <= 0 + M * (1 - nth 0 z 0) + 0)%Q) by exact F1.
    rewrite E1, EM in F2. lra.
Qed.

(** Greedy knapsack with a negative weight. *)
Lemma greedy_negative :
  exists v, solve_continuous_knapsack argsort_ref [1; 1]%Q 0 [1; - (1)]%Q (Fin 1) = Ok v /\
  ~ knap_upper [1; 1]%Q 0 [1; - (1)]%Q (Fin 1) v.
Proof.
  eexists. split; [vm_compute; reflexivity|]. intro H. specialize (H [1; 1]%Q).
  assert (1 * 1 + (1 * 1 + 0) - 0 <= 1)%Q; [|lra].
  eapply Qle_trans; [apply H|vm_compute; discriminate].
  - split; [reflexivity|]. constructor; [lra|constructor; [lra|constructor]].
  - reflexivity.
Qed.
Lemma greedy_assertion :
  solve_continuous_knapsack argsort_ref [1; 1]%Q 0 [- (1); - (1)]%Q (Fin 1) = Err AssertionError.
Proof. reflexivity. Qed.

(** Belotti's big M with a negative objective coefficient: too small. *)
Definition exNegC : inst :=
  mkInst 2 1 2 true (1 # 2) [1; - (1)]%Q [[[1; 1]]; [[1; 0]]]%Q [[0]; [1]]%Q.
Lemma belotti_negative : exists Ms,
  wf_inst exNegC /\ Forall (Forall (Forall (fun a => 0 <= a)%Q)) (i_A exNegC) /\
  belotti_all argsort_ref (fun _ _ => NoSolution) (view_inst exNegC (uniform 2)) (Fin 1) 2 0 = (Ok Ms, 0) /\
  in_dom exNegC [1; 1]%Q /\ (obj exNegC [1; 1] <= 1)%Q /\
  (nth 0 (nth 0 Ms []) 0 < dot (row exNegC 0 0) [1; 1] - rhs exNegC 0 0)%Q.
Proof.
  eexists. split; [unfold wf_inst; cbn; repeat split; auto; repeat constructor|].
  split; [repeat constructor; lra|]. split; [vm_compute; reflexivity|].
  split; [split; [split; [reflexivity|]|discriminate]; repeat constructor; lra|].
  split; [vm_compute; discriminate|reflexivity].
Qed.
