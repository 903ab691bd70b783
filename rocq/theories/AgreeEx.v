(** The integration tests of the repository on two small instances (C70). *)
From Verif Require Import Base BaseFacts Spec Instance InstanceFacts OptModels OptFacts Initial Bounds Refine CostRefine Merge Violations BigM Adaptive AdaptiveSpec
  AdaptiveEx AdaptiveEx2 Ex AccRef ViolationsFacts EndEx NearSpec NearFacts Mip ContEx Milp MilpEx AgreeSpec AgreeFacts.

(** tests/integration/test_integration_bin.py:38-60, test_integration_cont.py:39-58: value of MilpSolver for each big M method. *)
Definition milp_values (I : inst) : list (option ext) :=
  map (fun p => match milp_run (mip_world I) I milp_cfg (fst p) (snd p) with (Ok _, s) => Some (a_vLB s) | _ => None end)
    [(false, Naive); (true, Naive); (true, Belotti); (true, Song)].
(** test_integration_bin.py:62-90, test_integration_cont.py:60-90: value of AdaptivePartitioner for each combination of options. *)
Definition adaptive_values (I : inst) : list (option ext) :=
  flat_map (fun ini => flat_map (fun sp => flat_map (fun mth => map (fun mg =>
    match run (mip_world I) I (ex_cfg sp ini mth mg true) 10 with (Ok _, s) => Some (a_vLB s) | _ => None end)
    [false; true]) [Naive; Belotti; Song]) [SplitRandom; SplitCost]) [InitRandom; InitCost].

Lemma mip_undisturbed I cf : (0 < c_limit cf)%Q -> undisturbed (mip_world I) cf.
Proof. intro HL. split; [reflexivity|]. split; intros; cbn; lra. Qed.
Lemma mip_answers I : exact_answers (mip_world I).
Proof. intros t m. apply mip_exact. Qed.

Lemma agree_example :
  (forall I, exact_answers (mip_world I)) /\ (forall I cf, (0 < c_limit cf)%Q -> undisturbed (mip_world I) cf) /\
  (i_cont exMid = false /\ tight exMid /\ tolerated exMid + 1 < i_k exMid) /\ (i_cont exPair = true /\ near exPair) /\
  (forall x, In x (milp_values exMid ++ adaptive_values exMid) -> x = Some (Fin 5)) /\ length (adaptive_values exMid) = 24 /\
  (forall x, In x (milp_values exPair ++ adaptive_values exPair) -> x = Some (Fin (1794 # 529))) /\ length (adaptive_values exPair) = 24.
Proof.
  split; [exact mip_answers|]. split; [exact mip_undisturbed|]. split; [split; [reflexivity|]; split; [apply tenthsb_tight; reflexivity|vm_compute; lia]|].
  split; [split; [reflexivity|exact (proj1 (proj2 (proj2 (proj2 (proj2 (proj2 cont_example))))))]|].
  assert (R : forall (v : option ext) l, l = repeat v (length l) -> forall x, In x l -> x = v).
  { intros v l E x H. rewrite E in H. now apply repeat_spec in H. }
  split; [apply R; vm_compute; reflexivity|]. split; [vm_compute; reflexivity|]. split; [apply R; vm_compute; reflexivity|vm_compute; reflexivity].
Qed.

(** A solver that stops at a relative gap of 1e-8, with a tolerance of 1e-6 on the rows. *)
Lemma close_example : let w := loose_world exMid in solver_ok w exMid tol6 (1 # 100000) /\ eps_within exMid tol6 /\ eps_ok exMid /\ tight exMid /\ wf_inst exMid /\ packing exMid /\
  (let '(r, s) := milp_run w exMid ex_plain false Naive in r = Ok None /\ a_vLB s = Fin 5 /\ a_vUB s = Fin (500000005 # 100000000)) /\
  (let '(r, s) := run w exMid ex_plain 3 in r = Ok Feasible /\ a_vLB s = Fin (500000005 # 100000000)).
Proof.
  cbv zeta. assert (W : wf_inst exMid) by (apply wf_instb_ok; reflexivity).
  split; [apply loose_solver; [exact W|unfold tol6; lra]|]. split; [vm_compute; reflexivity|]. split; [split; vm_compute; [discriminate|reflexivity]|].
  split; [apply tenthsb_tight; reflexivity|]. split; [exact W|]. split; [apply packingb_ok; reflexivity|]. split; vm_compute; auto.
Qed.
