(** A level below one over the number of scenarios (C79). *)
From Verif Require Import Base BaseFacts Spec Instance InstanceFacts OptModels OptFacts Initial Bounds Refine CostRefine Merge Violations BigM Adaptive AdaptiveSpec
  AdaptiveEx AdaptiveEx2 Ex ViolationsFacts BruteForce BruteForceFacts AccRef NearSpec EndEx MetaSpec AdaptiveRobust.

Definition exRob : inst := at_level exMid (1 # 5).
Definition rob_runs : list (res verdict * nat * ext) :=
  flat_map (fun ini => flat_map (fun sp => flat_map (fun mth => map (fun mg =>
    let '(r, s) := run (brute_world exRob) exRob (ex_cfg sp ini mth mg true) 1 in (r, a_iter s, a_vLB s))
    [false; true]) [Naive; Belotti; Song]) [SplitRandom; SplitCost]) [InitRandom; InitCost].

Lemma robust_example :
  (let w := brute_world exRob in oracles_ok w exRob /\ sort_spec (w_sort w) /\ wf_inst exRob /\ packing exRob /\ eps_ok exRob /\ solver_ok w exRob 0 0) /\
  (i_eps exRob < 1)%Q /\ tight exRob /\ i_cont exRob = false /\ tolerated exRob = 0 /\
  (exists y, det_feasible exRob (seq 0 (i_k exRob)) 0 y /\ (0 < obj exRob y)%Q) /\
  (forall sp ini mth mg bm, sp <> SplitOther -> ini <> InitOther -> mth <> OtherM ->
    calm (brute_world exRob) (ex_cfg sp ini mth mg bm) /\ options_ok (brute_world exRob) exRob (ex_cfg sp ini mth mg bm)) /\
  rob_runs = repeat (Ok Feasible, 1, Fin 5) 24.
Proof.
  split; [exact (example_hyps exRob eq_refl eq_refl eq_refl eq_refl)|]. split; [reflexivity|]. split; [apply tenthsb_tight; reflexivity|].
  split; [reflexivity|]. split; [reflexivity|]. split.
  { exists [0; 0; 1]%Q. split; [split; [apply in_domb_ok; reflexivity|]|reflexivity].
    intros s Hs. apply satb_iff. apply in_seq in Hs. destruct s as [|[|[|[|s]]]]; try (vm_compute; reflexivity). cbn in Hs. lia. }
  split. { intros sp ini mth mg bm H1 H2 H3. split; [now apply brute_calm|]. apply brute_options; auto; [apply wf_instb_ok; reflexivity|vm_compute; lia]. }
  vm_compute. reflexivity.
Qed.
