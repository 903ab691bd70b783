(** Changed instances (C78). *)
From Verif Require Import Base BaseFacts Spec Instance InstanceFacts OptModels OptFacts Initial Bounds Refine CostRefine Merge Violations BigM Adaptive AdaptiveSpec
  AdaptiveEx AdaptiveEx2 Ex AccRef ViolationsFacts EndEx NearSpec NearFacts Mip ContEx Milp MilpEx AgreeSpec AgreeFacts MetaSpec MetaFacts.

(** exMid at level 1/2, with its scenarios in another order, each of them twice, with rows and objective multiplied, with its items in another order,
    and with capacities 2. *)
Definition exTwo : inst :=
  mkInst 3 1 4 false (1 # 4) [10; 10; 5]%Q [[[1; 2; 1]]; [[2; 1; 1]]; [[1; 2; 1]]; [[2; 1; 1]]]%Q (repeat [2%Q] 4).
Definition exChanged : list inst :=
  [at_level exMid (1 # 2); reselect exMid [3; 1; 0; 2]; reselect exMid [3; 3; 1; 0; 0; 1; 2; 2]; scaled exMid 3 (fun s _ => Qn (S s)); reorder exMid [2; 0; 1]; exTwo].
Definition adaptive_value (I : inst) : res verdict * ext := let '(r, s) := run (brute_world I) I ex_plain 20 in (r, a_vLB s).
Definition milp_value (I : inst) : res (option Q) * ext := let '(r, s) := milp_run (brute_world I) I ex_plain false Naive in (r, a_vLB s).

Definition okb (I : inst) : bool := wf_instb I && packingb I && tenthsb I && negb (i_cont I) && Qle_bool 0 (i_eps I) &&
  Z.eqb (Qfloor (i_eps I * Qn (i_k I) + (1 # 10000000) * Qn (i_k I))) (Qfloor (i_eps I * Qn (i_k I))).
Lemma changed_example :
  (forall I, In I (exMid :: exChanged) -> wf_inst I /\ packing I /\ eps_ok I /\ tight I /\ i_cont I = false /\ solver_ok (brute_world I) I 0 0 /\
     oracles_ok (brute_world I) I /\ sort_spec (w_sort (brute_world I))) /\
  larger exMid exTwo /\
  map adaptive_value (exMid :: exChanged) = map (fun v => (Ok Feasible, Fin v)) [5; 10; 5; 5; 15; 5; 10]%Q /\
  map milp_value (exMid :: exChanged) = map (fun v => (Ok None, Fin v)) [5; 10; 5; 5; 15; 5; 10]%Q.
Proof.
  assert (G : forall I, okb I = true -> wf_inst I /\ packing I /\ eps_ok I /\ tight I /\ i_cont I = false /\ solver_ok (brute_world I) I 0 0 /\ oracles_ok (brute_world I) I /\ sort_spec (w_sort (brute_world I))).
  { intros I H. unfold okb in H. rewrite !andb_true_iff in H. destruct H as (((((H1 & H2) & H3) & H4) & H5) & H6). apply negb_true_iff in H4.
    destruct (example_hyps I H1 H2 H5 H6) as (B1 & B2 & W & P & HE & B3).
    split; [exact W|]. split; [exact P|]. split; [exact HE|]. split; [now apply tenthsb_tight|]. split; [exact H4|]. split; [exact B3|]. split; assumption. }
  split; [intros I HI; apply G; revert I HI; apply (proj1 (forallb_forall okb (exMid :: exChanged))); vm_compute; reflexivity|].
  split; [|split; vm_compute; reflexivity].
  do 7 (split; [reflexivity|]). intros s i Hs Hi. cbn in Hs, Hi. destruct i; [|lia]. do 4 (destruct s as [|s]; [vm_compute; discriminate|]). lia.
Qed.

(** Rows multiplied by 1e-7: the capacities are below the tolerance of 1e-6 of is_feasible, and another point is returned. *)
Definition exTiny : inst := scaled exMid 1 (fun _ _ => 1 # 10000000)%Q.
Lemma mid_hyps : wf_inst exMid /\ packing exMid /\ eps_ok exMid /\ solver_ok (brute_world exMid) exMid 0 0.
Proof. destruct (example_hyps exMid) as (_ & _ & W & P & HE & HS); try (vm_compute; reflexivity). repeat (split; [assumption|]). assumption. Qed.
Lemma tiny_hyps : solver_ok (brute_world exTiny) exTiny 0 0.
Proof. apply (example_hyps exTiny); vm_compute; reflexivity. Qed.
Lemma mid_run : exists s, run (brute_world exMid) exMid ex_plain 20 = (Ok Feasible, s) /\ a_vLB s = Fin 5.
Proof. match goal with |- exists s, ?t = _ /\ _ => start_run t end. split; [exact E|vm_compute; reflexivity]. Qed.
Lemma tiny_run : exists s, run (brute_world exTiny) exTiny ex_plain 20 = (Ok Feasible, s) /\ a_vLB s = Fin 10.
Proof. match goal with |- exists s, ?t = _ /\ _ => start_run t end. split; [exact E|vm_compute; reflexivity]. Qed.
Lemma tiny_refuted : ~ (forall I f w1 w2, (forall s i, s < i_k I -> i < i_m I -> (0 < f s i)%Q) -> wf_inst I -> packing I -> eps_ok I ->
  solver_ok w1 I 0 0 -> solver_ok w2 (scaled I 1 f) 0 0 -> forall fuel s1 s2, run w1 I ex_plain fuel = (Ok Feasible, s1) ->
  run w2 (scaled I 1 f) ex_plain fuel = (Ok Feasible, s2) -> a_vLB s1 = a_vLB s2).
Proof.
  intro H. destruct mid_hyps as (W & P & HE & HS).
  assert (HS' := tiny_hyps).
  destruct mid_run as (s1 & R1 & E1). destruct tiny_run as (s2 & R2 & E2).
  specialize (H exMid (fun _ _ => 1 # 10000000)%Q (brute_world exMid)).
  assert (E : exTiny = scaled exMid 1 (fun _ _ => 1 # 10000000)%Q) by reflexivity. rewrite <- E in H. clear E.
  specialize (H (brute_world exTiny) ltac:(intros; reflexivity) W P HE HS HS' 20 s1 s2 R1 R2).
  rewrite E1, E2 in H. discriminate H.
Qed.
