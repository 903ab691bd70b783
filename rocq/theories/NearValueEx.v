(** Values reported with continuous variables (C94). *)
From Verif Require Import Base BaseFacts Spec Instance InstanceFacts OptModels OptFacts Initial Bounds Refine CostRefine Merge Violations BigM Adaptive AdaptiveSpec
  AdaptiveEx AdaptiveEx2 BoundsFacts Ex ViolationsFacts NearSpec NearFacts Mip ContEx.

(** One variable; scenarios 0 and 2 allow less than scenario 1, by 2.5e-7. *)
Definition exLoose : inst :=
  mkInst 1 1 3 true (1 # 3) [1]%Q [[[2]]; [[2]]; [[2]]]%Q [[1 - (1 # 2000000)]; [1]; [1 - (1 # 2000000)]]%Q.

Lemma loose_values y : cc_feasible exLoose 0 y -> (obj exLoose y <= 1999999 # 4000000)%Q.
Proof.
  intros [D F]. assert (L : length y = 1) by apply D. destruct y as [|a [|b y]]; [discriminate L| |discriminate L].
  assert (C : nviol exLoose 0 [a] <= 1) by (apply (tolerated_le exLoose) in F; [exact F|vm_compute; discriminate]).
  unfold nviol, count in C. cbn [seq i_k exLoose filter] in C.
  destruct (satb exLoose 0 [a] 0) eqn:E0.
  - apply satb_iff in E0. specialize (E0 0 ltac:(cbn; lia)). cbn in E0 |- *. lra.
  - destruct (satb exLoose 0 [a] 2) eqn:E2.
    + apply satb_iff in E2. specialize (E2 0 ltac:(cbn; lia)). cbn in E2 |- *. lra.
    + exfalso. cbn [negb] in C. destruct (negb (satb exLoose 0 [a] 1)); cbn in C; lia.
Qed.
Lemma loose_witness :
  (let w := mip_world exLoose in oracles_ok w exLoose /\ sort_spec (w_sort w) /\ wf_inst exLoose /\ packing exLoose /\ eps_ok exLoose /\ solver_ok w exLoose 0 0 /\
    exact_if_cont w exLoose) /\ i_cont exLoose = true /\
  (forall s i, s < i_k exLoose -> i < i_m exLoose -> (qsum (i_c exLoose) <= 1000 * rhs exLoose s i)%Q) /\
  (exists s, run (mip_world exLoose) exLoose ex_plain 1 = (Ok Feasible, s) /\ a_vUB s = Fin (1 # 2) /\ a_vLB s = Fin (1 # 2)) /\
  forall y, cc_feasible exLoose 0 y -> (obj exLoose y < 1 # 2)%Q.
Proof.
  split; [exact (mip_hyps exLoose eq_refl eq_refl eq_refl eq_refl)|]. split; [reflexivity|]. split; [apply rhsb_ok; vm_compute; reflexivity|]. split.
  - eexists. split; [vm_compute; reflexivity|]. split; reflexivity.
  - intros y Hy. apply loose_values in Hy. lra.
Qed.

(** A run that ends and one that fails the sanity check. *)
Lemma near_value_example :
  (let w := mip_world exPair in oracles_ok w exPair /\ sort_spec (w_sort w) /\ wf_inst exPair /\ packing exPair /\ eps_ok exPair /\ solver_ok w exPair 0 0) /\
  (let w := mip_world exSmall in oracles_ok w exSmall /\ sort_spec (w_sort w) /\ wf_inst exSmall /\ packing exSmall /\ eps_ok exSmall /\ solver_ok w exSmall 0 0) /\
  i_cont exPair = true /\ (forall s i, s < i_k exPair -> i < i_m exPair -> (qsum (i_c exPair) <= 1000 * rhs exPair s i)%Q) /\ near exPair /\
  i_cont exSmall = true /\ (forall s i, s < i_k exSmall -> i < i_m exSmall -> (qsum (i_c exSmall) <= 1000 * rhs exSmall s i)%Q) /\ near exSmall /\
  (let '(r, s) := run (mip_world exPair) exPair (ex_cfg SplitCost InitCost Belotti false true) 3 in
    r = Ok Feasible /\ a_vUB s = Fin (1794 # 529) /\ a_vLB s = Fin (1794 # 529)) /\
  (let '(r, s) := run (mip_world exSmall) exSmall ex_plain 4 in r = Err AssertionError /\ a_vUB s = Fin (3 # 20) /\ a_vLB s = Fin (374997 # 2500000)).
Proof.
  split. { destruct (mip_hyps exPair eq_refl eq_refl eq_refl eq_refl) as (A & B & C & D & E & F & _). cbv zeta. auto 10. }
  split. { destruct (mip_hyps exSmall eq_refl eq_refl eq_refl eq_refl) as (A & B & C & D & E & F & _). cbv zeta. auto 10. }
  assert (R1 : forall s i, s < i_k exPair -> i < i_m exPair -> (qsum (i_c exPair) <= 1000 * rhs exPair s i)%Q) by (apply rhsb_ok; vm_compute; reflexivity).
  assert (R2 : forall s i, s < i_k exSmall -> i < i_m exSmall -> (qsum (i_c exSmall) <= 1000 * rhs exSmall s i)%Q) by (apply rhsb_ok; vm_compute; reflexivity).
  split; [reflexivity|]. split; [exact R1|]. split; [apply near_cont; auto; [apply wf_instb_ok; reflexivity|apply packingb_ok; reflexivity]|].
  split; [reflexivity|]. split; [exact R2|]. split; [apply near_cont; auto; [apply wf_instb_ok; reflexivity|apply packingb_ok; reflexivity]|].
  split; vm_compute; auto.
Qed.
