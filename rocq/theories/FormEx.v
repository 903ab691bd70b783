(** Models of runs on a small instance (C86). *)
From Verif Require Import Base BaseFacts Spec Instance OptModels Initial Bounds Adaptive AdaptiveSpec AdaptiveEx AdaptiveEx2 Ex Milp MilpEx
  SolveSpec SolveEx FormSpec FormFacts.

(** Times at which a model of a given kind is solved: the solver is interrupted there if the model is of this kind. *)
Definition stops_kind {A} (kind : model -> bool) (w : world) (go : world -> res A * ast) : list nat :=
  stops (with_solve w (w_solve w)) (fun w' => go (with_solve w' (fun t m => if kind m then w_solve w' t m else w_solve w t m))).
Definition is_subset (m : model) : bool := (m_nz m =? 0) && match m_gap m with None => true | _ => false end.
Definition is_lower (m : model) : bool := (m_nz m =? 0) && match m_gap m with Some g => Qeq_bool g (1 # 10000) | _ => false end.
Definition is_knapsack (m : model) : bool := (m_nz m =? 0) && match m_gap m with Some g => Qeq_bool g (1 # 100000000) | _ => false end.
Definition is_chance (m : model) : bool := 0 <? m_nz m.
(** Scenario or subset costs, lower bounds, knapsacks, relaxations. *)
Definition kinds {A} (w : world) (go : world -> res A * ast) : list nat :=
  map (fun k => length (stops_kind k w go)) [is_subset; is_lower; is_knapsack; is_chance].

Lemma form_example : let w := brute_world exMid in
  kinds w (fun w => run w exMid ex_plain 9) = [6; 2; 0; 2] /\
  kinds w (fun w => run w exMid (ex_cfg SplitCost InitCost Belotti false true) 9) = [10; 2; 8; 2] /\
  kinds w (fun w => milp_run w exMid ex_plain true Belotti) = [4; 0; 4; 1] /\
  well_formed exMid (deter_model exMid [0; 2]) /\ ~ well_formed exMid (deter_model exMid [4]) /\
  (forall m, m_time m = Some (-1)%Q -> ~ well_formed exMid m) /\
  (forall m, In (CInd (m_nz m) (i_c exMid) 1) (m_cstrs m) -> ~ well_formed exMid m).
Proof.
  cbv zeta. assert (W : wf_inst exMid) by (apply wf_instb_ok; reflexivity).
  split; [vm_compute; reflexivity|]. split; [vm_compute; reflexivity|]. split; [vm_compute; reflexivity|].
  split; [apply deter_formed; [exact W|repeat constructor]|]. split; [|split].
  - intros [_ _ _ H _ _ _]. cbn in H. inversion H as [|c l H1 _]. cbn in H1. destruct H1 as [[C _]|(b & (C & _) & _)]; vm_compute in C; discriminate C.
  - intros m E [_ _ _ _ _ _ H]. specialize (H _ E). vm_compute in H. now apply H.
  - intros m Hin [_ _ _ H _ _ _]. rewrite Forall_forall in H. specialize (H _ Hin). cbn in H. lia.
Qed.
