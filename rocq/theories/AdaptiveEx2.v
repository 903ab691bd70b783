(** Concrete runs about the bounds of the adaptive partitioner (C40, C42, C43, C57). *)
From Verif Require Import Base BaseFacts Spec Instance InstanceFacts OptModels OptFacts Initial Bounds Refine CostRefine Merge Knapsack
  Violations BigM Adaptive AdaptiveWp BruteForce BruteForceFacts Ex AccRef ViolationsFacts BigMEx AdaptiveSpec AdaptiveEx.

(** The enumerating solver is an exact solver. *)
Lemma brute_ok0 m : outcome_ok 0 m (brute m).
Proof.
  destruct (m_cont m) eqn:E; [unfold brute; rewrite E; exact Logic.I|].
  assert (H := brute_exact m E). destruct (brute m) as [x z v b| | |]; cbn in H |- *; auto.
  destruct H as (H1 & H2 & H3 & H4). split; [assumption|]. split; [assumption|]. split; [lra|assumption].
Qed.
Lemma brute_tight m x z v b : brute m = Solved x z v b -> b = v.
Proof.
  unfold brute. destruct (m_cont m); [discriminate|]. destruct (brute_candidates m) as [|c cs]; [discriminate|].
  destruct (best _ c cs) as [x' z']. intro E. injection E as <- <- <- <-. reflexivity.
Qed.
(** A solver that enumerates except for the models with MIP gap 1e-8, where it is [f]. *)
Lemma eval_brute I solve delta : wf_inst I -> (0 <= delta)%Q -> (forall t S, solve t (deter_model I S) = brute (deter_model I S)) ->
  (forall t m, outcome_ok 0 m (solve t m)) ->
  (forall t m x z v b, m_gap m = Some (1 # 100000000)%Q -> solve t m = Solved x z v b -> (b <= v + delta)%Q) ->
  solver_ok (ex_world I solve) I 0 delta.
Proof.
  intros HW D0 HD HO HG. constructor.
  - unfold tol6. lra.
  - exact D0.
  - exact HO.
  - intros S v x (t & z & b & E) y Hy. cbn [ex_world w_solve] in E. rewrite HD in E. assert (H := brute_ok0 (deter_model I S)).
    rewrite E in H. apply brute_tight in E. subst b. now apply (deter_bound I S 0 x z v v H).
  - exact HG.
Qed.
Lemma brute_solver_ok I : wf_inst I -> solver_ok (ex_world I (fun _ m => brute m)) I 0 0.
Proof.
  intro HW. apply eval_brute; auto; [lra|intros; apply brute_ok0|]. intros t m x z v b _ E. apply brute_tight in E. subst. lra.
Qed.

Definition wf_instb (I : inst) : bool :=
  (0 <? i_k I) && (length (i_c I) =? i_n I) && (length (i_A I) =? i_k I) &&
  forallb (fun M => (length M =? i_m I) && forallb (fun r => length r =? i_n I) M) (i_A I) &&
  (length (i_b I) =? i_k I) && forallb (fun v => length v =? i_m I) (i_b I).
Lemma wf_instb_ok I : wf_instb I = true -> wf_inst I.
Proof.
  unfold wf_instb. rewrite !andb_true_iff, !Nat.eqb_eq, Nat.ltb_lt, !forallb_forall. intros [[[[[H1 H2] H3] H4] H5] H6].
  split; [exact H1|]. split; [exact H2|]. split; [exact H3|]. split; [|split; [exact H5|]].
  - apply Forall_forall. intros M HM. specialize (H4 M HM). rewrite andb_true_iff, Nat.eqb_eq, forallb_forall in H4. destruct H4 as [A B].
    split; [exact A|]. apply Forall_forall. intros r Hr. now apply Nat.eqb_eq, B.
  - apply Forall_forall. intros v Hv. now apply Nat.eqb_eq, H6.
Qed.
Definition packingb (I : inst) : bool :=
  forallb (Qle_bool 0) (i_c I) && forallb (forallb (forallb (Qle_bool 0))) (i_A I) && forallb (forallb (Qle_bool 0)) (i_b I).
Lemma packingb_ok I : packingb I = true -> packing I.
Proof.
  unfold packingb. rewrite !andb_true_iff, !forallb_forall. intros [[H1 H2] H3]. split; [|split]; apply Forall_forall; intros a Ha.
  - now apply Qle_bool_iff, H1.
  - specialize (H2 a Ha). rewrite forallb_forall in H2. apply Forall_forall. intros r Hr. specialize (H2 r Hr). rewrite forallb_forall in H2.
    apply Forall_forall. intros q Hq. now apply Qle_bool_iff, H2.
  - specialize (H3 a Ha). rewrite forallb_forall in H3. apply Forall_forall. intros q Hq. now apply Qle_bool_iff, H3.
Qed.
(** Binary feasibility by computation. *)
Lemma cc_feasible_dec I tau x : in_domb I x = true -> Qle_bool (Qn (nviol I tau x)) (i_eps I * Qn (i_k I)) = true -> cc_feasible I tau x.
Proof. intros H1 H2. split; [now apply in_domb_ok|now apply Qle_bool_iff]. Qed.

(** Hypotheses of the theorems hold in the example world. *)
Lemma example_hyps I : wf_instb I = true -> packingb I = true -> Qle_bool 0 (i_eps I) = true ->
  (Qfloor (i_eps I * Qn (i_k I) + (1 # 10000000) * Qn (i_k I)) =? Qfloor (i_eps I * Qn (i_k I)))%Z = true ->
  let w := ex_world I (fun _ m => brute m) in
  oracles_ok w I /\ sort_spec (w_sort w) /\ wf_inst I /\ packing I /\ eps_ok I /\ solver_ok w I 0 0.
Proof.
  intros H1 H2 H3 H4. apply wf_instb_ok in H1. split; [now apply ex_oracles|]. split; [exact sort_ref_spec|]. split; [exact H1|].
  split; [now apply packingb_ok|]. split; [split; [now apply Qle_bool_iff|now apply Z.eqb_eq]|now apply brute_solver_ok].
Qed.

(** ** C42: the tolerance of the feasibility check *)
(** Four items, one of which can be taken.  The first exceeds two capacities by 5e-7. *)
Definition exTol : inst :=
  mkInst 4 1 4 false (1 # 4) [10; 9; 12; 5]%Q
    [[[20000010 # 20000000; 1; 1; 1]]; [[20000010 # 20000000; 1; 2; 1]]; [[1; 1; 1; 1]]; [[1; 2; 2; 1]]]%Q (repeat [1%Q] 4).

(** ** C42: the default MIP gap of the evaluator *)
(** The worst answer within the relative gap 1e-4, with the proved bound. *)
Definition brute_gap (_ : nat) (m : model) : outcome :=
  match m_gap m, brute_candidates m with
  | None, c :: cs =>
      if m_cont m then NoSolution else
      let b := m_val m (fst (best (fun xz => m_val m (fst xz)) c cs)) in
      let ok := filter (fun xz => Qle_bool b (m_val m (fst xz) * (10001 # 10000))) (c :: cs) in
      match ok with
      | d :: ds => let '(x, z) := best (fun xz => - m_val m (fst xz))%Q d ds in Solved x z (m_val m x) b
      | [] => brute m
      end
  | _, _ => brute m
  end.
Lemma brute_gap_ok t m : outcome_ok 0 m (brute_gap t m) /\
  forall x z v b, brute_gap t m = Solved x z v b -> (b <= v * (10001 # 10000))%Q \/ b = v.
Proof.
  assert (B := brute_ok0 m). unfold brute_gap. destruct (m_gap m) as [g|] eqn:EG; [split; [exact B|]; intros; right; now apply (brute_tight m x z)|].
  destruct (brute_candidates m) as [|c cs] eqn:EC; [split; [exact B|]; intros; right; now apply (brute_tight m x z)|].
  destruct (m_cont m) eqn:EM; [split; [exact Logic.I|discriminate]|].
  set (b := m_val m (fst (best (fun xz => m_val m (fst xz)) c cs))).
  destruct (filter _ (c :: cs)) as [|d ds] eqn:EF; [split; [exact B|]; intros; right; now apply (brute_tight m x z)|].
  destruct (best _ d ds) as [x z] eqn:EB. destruct (best_spec (fun xz : list Q * list Q => (- m_val m (fst xz))%Q) ds d) as [H1 _]. rewrite EB, <- EF in H1.
  apply filter_In in H1 as [H1 H2]. apply Qle_bool_iff in H2. cbn [fst] in H2. rewrite <- EC in H1.
  assert (MX : forall y, In y (c :: cs) -> (m_val m (fst y) <= b)%Q) by apply (best_spec (fun xz => m_val m (fst xz)) cs c).
  split; [|intros ? ? ? ? E; injection E as <- <- <- <-; now left].
  split; [now apply brute_candidates_ok|]. split; [reflexivity|]. split; [rewrite EC in H1; exact (MX _ H1)|].
  intros x' z' A. destruct (brute_candidates_complete m x' z' EM A) as [A1 A2]. rewrite EC in A1. rewrite A2. exact (MX _ A1).
Qed.
Definition exGap : inst := mkInst 2 1 2 false 0 [10000; 10001]%Q [[[1; 1]]; [[1; 1]]]%Q [[1%Q]; [1%Q]].

(** ** C42: a bound that exceeds the previous one *)
(** The partition model is left with a bound 1e-5 above the objective (relative gap 1e-8). *)
Definition brute_slack (_ : nat) (m : model) : outcome :=
  match m_gap m, brute m with
  | Some q, Solved x z v b => if Qeq_bool q (1 # 100000000) then Solved x z v (v + (1 # 100000))%Q else Solved x z v b
  | _, o => o
  end.
Definition exSlack : inst :=
  mkInst 5 1 4 false (1 # 4) [1000; 1000; 1100; 1100; 5]%Q
    [[[1; 1; 2; 2; 1]]; [[4; 1; 1; 2; 1]]; [[1; 1; 2; 2; 1]]; [[2; 2; 2; 1; 1]]]%Q (repeat [1%Q] 4).

(** ** C43: an infeasible problem *)
Definition exNeg : inst :=
  mkInst 2 2 4 false (1 # 4) [1; 2]%Q
    [[[-1; 0]; [1; 1]]; [[0; -1]; [1; 1]]; [[-1; 0]; [1; 1]]; [[0; -1]; [1; 1]]]%Q (repeat [-1; 1]%Q 4).

(** ** C57: a lower bound of zero *)
Definition exZero : inst :=
  mkInst 2 1 4 false (1 # 4) [1; 1]%Q [[[1; 2]]; [[2; 1]]; [[1; 2]]; [[2; 1]]]%Q (repeat [1%Q] 4).

(** ** C40: an interruption inside _lower_bound *)
Definition exMid : inst :=
  mkInst 3 1 4 false (1 # 4) [10; 10; 5]%Q [[[1; 2; 1]]; [[2; 1; 1]]; [[1; 2; 1]]; [[2; 1; 1]]]%Q (repeat [1%Q] 4).
Definition with_intr (w : world) (n : nat) : world :=
  mkWorld (w_solve w) (w_acc w) (w_perm w) (w_argsort w) (w_norm w) (w_sort w) (w_clock w) (fun t => t =? n).
Definition brute_world (I : inst) : world := ex_world I (fun _ m => brute m).
Definition ex_gap1 : cfg := mkCfg SplitRandom InitRandom ProjRescaled false 100 1 false Naive false false 50.

Lemma cc_infeasible_dec I tau x : Qle_bool (Qn (nviol I tau x)) (i_eps I * Qn (i_k I)) = false -> ~ cc_feasible I tau x.
Proof. intros H [_ C]. apply Qle_bool_iff in C. congruence. Qed.

Ltac start_run t :=
  let r := fresh "r" in let E := fresh "E" in pose (r := t); assert (E : t = r) by reflexivity;
  vm_compute in r; revert E; unfold r; clear r; intro E; eexists.

Lemma tolerance_witness : exists s y, run (brute_world exTol) exTol ex_plain 20 = (Ok Feasible, s) /\
  a_vUB s = a_vLB s /\ ext_leb (a_vUB s) (Fin 5) = true /\ cc_feasible exTol 0 y /\ (obj exTol y == 9)%Q.
Proof.
  start_run (run (brute_world exTol) exTol ex_plain 20). exists [0; 1; 0; 0]%Q. split; [exact E|]. split; [vm_compute; reflexivity|].
  split; [vm_compute; reflexivity|]. split; [apply cc_feasible_dec; vm_compute; reflexivity|vm_compute; reflexivity].
Qed.
Lemma gap_witness : exists s y, run (ex_world exGap brute_gap) exGap ex_plain 20 = (Ok Feasible, s) /\
  a_vUB s = a_vLB s /\ ext_leb (a_vUB s) (Fin 10000) = true /\ cc_feasible exGap 0 y /\ (obj exGap y == 10001)%Q.
Proof.
  start_run (run (ex_world exGap brute_gap) exGap ex_plain 20). exists [0; 1]%Q. split; [exact E|]. split; [vm_compute; reflexivity|].
  split; [vm_compute; reflexivity|]. split; [apply cc_feasible_dec; vm_compute; reflexivity|vm_compute; reflexivity].
Qed.
Lemma brute_slack_solver I : wf_inst I -> solver_ok (ex_world I brute_slack) I 0 (1 # 100000).
Proof.
  intro HW. apply eval_brute; auto; [lra| |].
  - intros t m. unfold brute_slack. assert (H := brute_ok0 m). destruct (m_gap m) as [q|]; [|exact H].
    destruct (brute m) as [x z v b| | |] eqn:EB; try exact H. destruct (Qeq_bool q _); [|exact H]. apply brute_tight in EB. subst b.
    destruct H as (H1 & H2 & H3 & H4). split; [assumption|]. split; [assumption|]. split; [lra|]. intros x' z' A. specialize (H4 _ _ A). lra.
  - intros t m x z v b EG. unfold brute_slack. rewrite EG. destruct (brute m) as [x' z' v' b'| | |]; try discriminate.
    rewrite (proj2 (Qeq_bool_iff _ _) (Qeq_refl _)). intro E. injection E as <- <- <- <-. lra.
Qed.
Lemma slack_witness : exists s x, run (ex_world exSlack brute_slack) exSlack ex_plain 20 = (Ok Feasible, s) /\
  a_xLB s = Some x /\ a_xUB s = Some x /\ ~ cc_feasible exSlack tol6 x.
Proof.
  start_run (run (ex_world exSlack brute_slack) exSlack ex_plain 20). exists [1; 0; 0; 0; 0]%Q. split; [exact E|]. split; [vm_compute; reflexivity|].
  split; [vm_compute; reflexivity|]. apply cc_infeasible_dec. vm_compute. reflexivity.
Qed.
Lemma negative_witness : (forall x, ~ cc_feasible exNeg 0 x) /\ exists s, run (brute_world exNeg) exNeg ex_plain 20 = (Ok GapReached, s) /\
  a_vLB s = Fin (- 1000000) /\ a_xLB s = None /\ a_xUB s = Some [0; 1]%Q.
Proof.
  split.
  - intros x [[[L B] BI] V]. specialize (BI eq_refl). destruct x as [|a [|b [|]]]; try discriminate.
    inversion BI as [|? ? A1 A2]; subst. inversion A2 as [|? ? A3 _]; subst.
    assert (H : count (fun s => negb (satb exNeg 0 [a; b] s)) (seq 0 4) <= 1).
    { apply Qn_le. eapply Qle_trans; [exact V|]. vm_compute. discriminate. }
    assert (S : forall s, satb exNeg 0 [a; b] s = true -> sat exNeg 0 [a; b] s) by (intro s; apply satb_iff).
    cbn [seq count filter length] in H.
    destruct (satb exNeg 0 [a; b] 0) eqn:E0, (satb exNeg 0 [a; b] 1) eqn:E1.
    + apply S in E0, E1. assert (X0 := E0 0 ltac:(cbn; lia)). assert (X1 := E1 0 ltac:(cbn; lia)). assert (X2 := E0 1 ltac:(cbn; lia)). cbn in *. lra.
    + destruct (satb exNeg 0 [a; b] 2) eqn:E2, (satb exNeg 0 [a; b] 3) eqn:E3; cbn in H; try lia.
      apply S in E0, E3. assert (X0 := E0 0 ltac:(cbn; lia)). assert (X1 := E3 0 ltac:(cbn; lia)). assert (X2 := E0 1 ltac:(cbn; lia)). cbn in *. lra.
    + destruct (satb exNeg 0 [a; b] 2) eqn:E2, (satb exNeg 0 [a; b] 3) eqn:E3; cbn in H; try lia.
      apply S in E2, E1. assert (X0 := E2 0 ltac:(cbn; lia)). assert (X1 := E1 0 ltac:(cbn; lia)). assert (X2 := E1 1 ltac:(cbn; lia)). cbn in *. lra.
    + cbn in H. destruct (satb exNeg 0 [a; b] 2), (satb exNeg 0 [a; b] 3); cbn in H; lia.
  - start_run (run (brute_world exNeg) exNeg ex_plain 20). split; [exact E|]. vm_compute. auto.
Qed.
Lemma zero_witness : exists s, run (brute_world exZero) exZero ex_plain 20 = (Err ZeroDivisionError, s) /\
  ext_leb (a_vLB s) (Fin 0) = true /\ a_xLB s = Some [0; 0]%Q /\ a_vUB s = Fin 1.
Proof. start_run (run (brute_world exZero) exZero ex_plain 20). split; [exact E|]. vm_compute. auto. Qed.
Lemma interrupt_witness : exists s, explore (with_intr (brute_world exMid) 27) exMid ex_plain 20 = (Err KeyboardInterrupt, s) /\
  a_vLB s = Fin 5 /\ a_xLB s = None.
Proof. start_run (explore (with_intr (brute_world exMid) 27) exMid ex_plain 20). split; [exact E|]. vm_compute. auto. Qed.
Lemma gap1_example : show_run (run (brute_world exMid) exMid ex_gap1 20) =
  (Ok GapReached, [Fin 5; Fin 10]%Q, [[0; 2]; [1; 3]], 1, [(1, [PInf; Fin (- (10))]%Q, 2); (1, [Fin (- (5)); Fin (- (10))]%Q, 2)]).
Proof. vm_compute. reflexivity. Qed.

(** ** C44 *)
Lemma brute_calm I cf : (0 < c_limit cf)%Q -> calm (brute_world I) cf.
Proof.
  intro HL. constructor; cbn [w_intr w_solve w_clock brute_world ex_world].
  - reflexivity.
  - intros _ m. unfold brute. destruct (m_cont m); [discriminate|]. destruct (brute_candidates m); [discriminate|]. destruct (best _ _ _). discriminate.
  - intros _ m C. assert (X := brute_exact m C). now apply exact_finished in X.
  - intros t t' _. cbn. lra.
  - intros t. lra.
Qed.
Lemma brute_options I sp ini mth merger bm : wf_inst I -> tolerated I + 1 <= 50 -> sp <> SplitOther -> ini <> InitOther -> mth <> OtherM ->
  options_ok (brute_world I) I (ex_cfg sp ini mth merger bm).
Proof.
  intros HW HF H1 H2 H3. constructor; cbn [c_init c_proj c_split c_acc c_fuel c_bigM c_method ex_cfg]; auto; [discriminate|].
  destruct sp; [left; auto|right|congruence]. split; [reflexivity|]. split; [reflexivity|]. apply acc_ref_total, HW.
Qed.
