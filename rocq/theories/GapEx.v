(** Witnesses for C73: runs in which the evaluator returns the worst answer within the default MIP gap 1e-4. *)
From Coq Require Import Qabs.
From Verif Require Import Base BaseFacts Spec Instance InstanceFacts OptModels Initial Bounds Refine CostRefine Merge Violations BigM Adaptive AdaptiveSpec Milp
  BruteForce AdaptiveEx AdaptiveEx2 EndEx Ex GapSpec.

Definition gap_world (I : inst) : world := ex_world I brute_gap.

Lemma gap_solver I : solver_gap (gap_world I) I 0 0 (1 # 10000).
Proof.
  constructor.
  - unfold tol6. lra.
  - lra.
  - intros t m. apply brute_gap_ok.
  - split; [lra|]. intros t m x z v b _ E. apply (proj2 (brute_gap_ok t m)) in E as [E|E].
    + assert (A := Qle_Qabs v). lra.
    + subst b. assert (A := Qabs_nonneg v). lra.
  - intros t m x z v b EG E. cbn in E. unfold brute_gap in E. rewrite EG in E. apply brute_tight in E. subst b. lra.
Qed.

(** Costs 10000 for two subsets whose true cost is 10001. *)
Definition exCrash : inst :=
  mkInst 3 1 3 false (1 # 3) [10001; 10001; 10000]%Q [[[3; 2; 1]]; [[1; 3; 2]]; [[2; 1; 2]]]%Q [[1]; [3]; [2]]%Q.
Definition exLow : inst :=
  mkInst 3 1 4 false (1 # 4) [10001; 10000; 5000]%Q [[[2; 3; 5]]; [[2; 5; 1]]; [[5; 1; 1]]; [[1; 3; 1]]]%Q [[3]; [3]; [3]; [3]]%Q.
Definition exBel : inst :=
  mkInst 3 1 4 false (1 # 4) [10001; 10000; 1]%Q [[[1; 1; 2]]; [[1; 5; 3]]; [[1; 1; 2]]; [[5; 2; 3]]]%Q [[2]; [3]; [1]; [1]]%Q.
Definition exQuant : inst :=
  mkInst 3 1 4 false (1 # 4) [10000; 10001; 5000]%Q [[[1; 5; 1]]; [[1; 1; 1]]; [[5; 1; 1]]; [[5; 1; 1]]]%Q (repeat [1%Q] 4).

Lemma crash_witness : exists s, run (gap_world exCrash) exCrash ex_plain 20 = (Err AttributeError, s) /\ a_vLB s = Fin 10001 /\ a_vUB s = Fin 20001 /\
  a_costs s = [10000; 20001; 10000]%Q /\ det_feasible exCrash (seq 0 3) 0 [0; 0; 1]%Q /\ (0 < obj exCrash [0; 0; 1])%Q.
Proof.
  start_run (run (gap_world exCrash) exCrash ex_plain 20). split; [exact E|]. do 3 (split; [vm_compute; reflexivity|]).
  split; [|vm_compute; reflexivity]. split; [split; [split; [reflexivity|repeat constructor; lra]|intros _; repeat constructor; lra]|].
  intros t Ht. apply satb_iff. destruct Ht as [<-|[<-|[<-|[]]]]; vm_compute; reflexivity.
Qed.
Lemma low_witness : exists s0 s, explore (gap_world exLow) exLow ex_plain 20 = (Ok Feasible, s0) /\ a_vLB s0 = Fin 10001 /\ a_xLB s0 = Some [1; 0; 0]%Q /\
  run (gap_world exLow) exLow ex_plain 20 = (Ok Feasible, s) /\ a_vLB s = Fin 5000 /\ a_vUB s = Fin 5000 /\ a_xLB s = Some [0; 0; 1]%Q /\
  cc_feasible exLow 0 [1; 0; 0]%Q /\ (obj exLow [1; 0; 0] == 10001)%Q.
Proof.
  start_run (explore (gap_world exLow) exLow ex_plain 20). start_run (run (gap_world exLow) exLow ex_plain 20).
  split; [exact E|]. do 2 (split; [vm_compute; reflexivity|]). split; [exact E0|]. do 3 (split; [vm_compute; reflexivity|]).
  split; [apply cc_feasible_dec; vm_compute; reflexivity|vm_compute; reflexivity].
Qed.

(** The big M's computed from a quantile bound of 0 (true value 10001) exclude the optimal point. *)
Lemma belotti_witness ini sp : ini = InitCost \/ ini = InitRandom /\ sp = SplitRandom -> sp <> SplitOther ->
  exists s, explore (gap_world exBel) exBel (ex_cfg sp ini Belotti false true) 20 = (Ok Feasible, s) /\ a_vLB s = Fin 0 /\ a_vUB s = Fin 0 /\
  cc_feasible exBel 0 [1; 0; 0]%Q /\ (obj exBel [1; 0; 0] == 10001)%Q.
Proof.
  assert (C : cc_feasible exBel 0 [1; 0; 0]%Q /\ (obj exBel [1; 0; 0] == 10001)%Q).
  { split; [apply cc_feasible_dec; vm_compute; reflexivity|vm_compute; reflexivity]. }
  intros H N. destruct sp; [| |congruence]; destruct H as [->|[-> H]]; try discriminate;
    match goal with |- exists s, ?t = _ /\ _ => start_run t end;
    (split; [exact E|]); (split; [vm_compute; reflexivity|]); (split; [vm_compute; reflexivity|]); exact C.
Qed.

(** The run ends with a verdict and without any solution. *)
Lemma none_witness : exists s, run (gap_world exQuant) exQuant (ex_cfg SplitCost InitCost Naive false false) 20 = (Ok Feasible, s) /\
  a_vLB s = Fin 10000 /\ a_vUB s = Fin 10000 /\ a_xLB s = None /\ a_xUB s = None /\
  cc_feasible exQuant 0 [0; 1; 0]%Q /\ (obj exQuant [0; 1; 0] == 10001)%Q.
Proof.
  match goal with |- exists s, ?t = _ /\ _ => start_run t end. split; [exact E|]. do 4 (split; [vm_compute; reflexivity|]).
  split; [apply cc_feasible_dec; vm_compute; reflexivity|vm_compute; reflexivity].
Qed.

Lemma milp_witness : exists s, milp_run (gap_world exQuant) exQuant ex_plain true Belotti = (Ok (Some 0%Q), s) /\
  a_vLB s = Fin 5000 /\ a_vUB s = Fin 5000 /\ a_xLB s = Some [0; 0; 1]%Q /\
  cc_feasible exQuant 0 [0; 1; 0]%Q /\ (obj exQuant [0; 1; 0] == 10001)%Q.
Proof.
  match goal with |- exists s, ?t = _ /\ _ => start_run t end. split; [exact E|]. do 3 (split; [vm_compute; reflexivity|]).
  split; [apply cc_feasible_dec; vm_compute; reflexivity|vm_compute; reflexivity].
Qed.

Lemma gap_instances : forall I, In I [exGap; exCrash; exLow; exBel; exQuant] -> wf_inst I /\ packing I /\ eps_ok I /\ (i_eps I < 1)%Q /\ tight I /\
  oracles_ok (gap_world I) I /\ sort_spec (w_sort (gap_world I)).
Proof.
  intros I H. repeat (destruct H as [<-|H]; [match goal with |- wf_inst ?J /\ _ =>
    assert (W : wf_inst J) by (apply wf_instb_ok; reflexivity);
    split; [exact W|]; split; [apply packingb_ok; reflexivity|]; split; [split; [now apply Qle_bool_iff|now apply Z.eqb_eq]|];
    split; [reflexivity|]; split; [apply tenthsb_tight; reflexivity|]; split; [now apply ex_oracles|exact ViolationsFacts.sort_ref_spec] end|]).
  destruct H.
Qed.
