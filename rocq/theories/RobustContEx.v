(** A level below one over the number of scenarios, with continuous variables (C79). *)
From Verif Require Import Base BaseFacts Spec Instance InstanceFacts OptModels OptFacts Initial Bounds Refine CostRefine Merge Violations BigM Adaptive AdaptiveSpec
  AdaptiveEx AdaptiveEx2 Ex ViolationsFacts BruteForce BruteForceFacts AccRef NearSpec NearFacts EndEx MetaSpec Mip ContEx.

Definition exRobCont : inst := at_level exPair (1 # 5).
Lemma robust_cont_example :
  (let w := mip_world exRobCont in oracles_ok w exRobCont /\ sort_spec (w_sort w) /\ wf_inst exRobCont /\ packing exRobCont /\ eps_ok exRobCont /\
    solver_ok w exRobCont 0 0 /\ exact_if_cont w exRobCont) /\
  (i_eps exRobCont < 1)%Q /\ near exRobCont /\ i_cont exRobCont = true /\ tolerated exRobCont = 0 /\
  (exists y, det_feasible exRobCont (seq 0 (i_k exRobCont)) 0 y /\ (0 < obj exRobCont y)%Q) /\
  (forall sp ini mth mg bm, sp <> SplitOther -> ini <> InitOther -> mth <> OtherM ->
    calm (mip_world exRobCont) (ex_cfg sp ini mth mg bm) /\ options_ok (mip_world exRobCont) exRobCont (ex_cfg sp ini mth mg bm)) /\
  (let '(r, s) := run (mip_world exRobCont) exRobCont (ex_cfg SplitCost InitCost Belotti true true) 1 in r = Ok Feasible /\ a_iter s = 1 /\ a_vLB s = a_vUB s).
Proof.
  split; [exact (mip_hyps exRobCont eq_refl eq_refl eq_refl eq_refl)|]. split; [reflexivity|].
  assert (W : wf_inst exRobCont) by (apply wf_instb_ok; reflexivity). assert (P : packing exRobCont) by (apply packingb_ok; reflexivity).
  split; [apply near_cont; auto; apply rhsb_ok; vm_compute; reflexivity|]. split; [reflexivity|]. split; [reflexivity|]. split.
  { exists [1 # 10; 1 # 10]%Q. split; [split; [apply in_domb_ok; reflexivity|]|reflexivity].
    intros s Hs. apply satb_iff. apply in_seq in Hs. destruct s as [|[|[|[|s]]]]; try (vm_compute; reflexivity). cbn in Hs. lia. }
  split. { intros sp ini mth merger bm H1 H2 H3. split; [now apply mip_calm|]. apply mip_options; auto. vm_compute. lia. }
  vm_compute. auto.
Qed.
