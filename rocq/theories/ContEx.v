(** Runs with two continuous variables and an exact solver (C69). *)
From Verif Require Import Base BaseFacts Spec Instance InstanceFacts OptModels OptFacts Initial Bounds Refine CostRefine Merge Violations ViolTable BigM Adaptive AdaptiveWp AdaptiveSpec
  AdaptiveEx AdaptiveEx2 Ex BruteForce BruteForceFacts BigMEx AccRef ViolationsFacts NearSpec ContFacts NearFacts Mip.

Definition mip_world (I : inst) : world := ex_world I (fun _ m => mip m).
Lemma mip_ok0 m : outcome_ok 0 m (mip m).
Proof.
  assert (H := mip_exact m). destruct (mip m) as [x z v b| | |]; cbn in H |- *; auto.
  destruct H as (H1 & H2 & H3 & H4). split; [assumption|]. split; [assumption|]. split; [lra|assumption].
Qed.
Lemma mip_solver_ok I : solver_ok (mip_world I) I 0 0.
Proof.
  constructor.
  - unfold tol6. lra.
  - lra.
  - intros t m. apply mip_ok0.
  - intros S v x (t & z & b & E) y Hy. cbn [mip_world ex_world w_solve] in E. assert (H := mip_ok0 (deter_model I S)). assert (X := mip_exact (deter_model I S)).
    rewrite E in H, X. cbn in X. rewrite (proj1 (proj2 (proj2 X))). now apply (deter_bound I S 0 x z v b H).
  - intros t m x z v b _ E. cbn [mip_world ex_world w_solve] in E. assert (X := mip_exact m). rewrite E in X. cbn in X. destruct X as (_ & _ & X & _). lra.
Qed.
Lemma mip_calm I cf : (0 < c_limit cf)%Q -> calm (mip_world I) cf.
Proof.
  intro HL. constructor; cbn [w_intr w_solve w_clock mip_world ex_world].
  - reflexivity.
  - intros _ m E. assert (X := mip_exact m). now rewrite E in X.
  - intros _ m _. exact (exact_finished m _ (mip_exact m)).
  - intros t t' _. cbn. lra.
  - intros t. lra.
Qed.
Lemma mip_options I sp ini mth merger bm : wf_inst I -> tolerated I + 1 <= 50 -> sp <> SplitOther -> ini <> InitOther -> mth <> OtherM ->
  options_ok (mip_world I) I (ex_cfg sp ini mth merger bm).
Proof.
  intros HW HF H1 H2 H3. constructor; cbn [c_init c_proj c_split c_acc c_fuel c_bigM c_method ex_cfg]; auto; [discriminate|].
  destruct sp; [left; auto|right|congruence]. split; [reflexivity|]. split; [reflexivity|]. apply acc_ref_total, HW.
Qed.
Lemma mip_cont I : exact_if_cont (mip_world I) I.
Proof. intros _ t m _. apply mip_exact. Qed.

(** Two continuous variables, two constraints, four scenarios of which one may be violated. *)
Definition exPair : inst :=
  mkInst 2 2 4 true (1 # 4) [3; 4]%Q
    [[[2; 5]; [4; 1]]; [[6; 2]; [1; 3]]; [[3; 8]; [5; 2]]; [[9; 4]; [2; 6]]]%Q [[4; 3]; [5; 2]; [4; 4]; [6; 5]]%Q.
(** exSame with the objective divided by ten thirds. *)
Definition exSmall : inst :=
  mkInst 1 1 4 true (1 # 4) [3 # 10]%Q [[[2]]; [[1 # 1000]]; [[2]]; [[10000]]]%Q [[1]; [3 # 10000]; [1]; [499996 # 100]]%Q.

Definition rhsb (I : inst) : bool := forallb (fun s => forallb (fun i => Qle_bool (qsum (i_c I)) (1000 * rhs I s i)) (seq 0 (i_m I))) (seq 0 (i_k I)).
Lemma rhsb_ok I : rhsb I = true -> forall s i, s < i_k I -> i < i_m I -> (qsum (i_c I) <= 1000 * rhs I s i)%Q.
Proof.
  unfold rhsb. rewrite forallb_forall. intros H s i Hs Hi. specialize (H s). rewrite in_seq, forallb_forall in H. specialize (H ltac:(lia) i).
  rewrite in_seq in H. apply Qle_bool_iff, H. lia.
Qed.
Lemma mip_hyps I : wf_instb I = true -> packingb I = true -> Qle_bool 0 (i_eps I) = true ->
  (Qfloor (i_eps I * Qn (i_k I) + (1 # 10000000) * Qn (i_k I)) =? Qfloor (i_eps I * Qn (i_k I)))%Z = true ->
  let w := mip_world I in
  oracles_ok w I /\ sort_spec (w_sort w) /\ wf_inst I /\ packing I /\ eps_ok I /\ solver_ok w I 0 0 /\ exact_if_cont w I.
Proof.
  intros H1 H2 H3 H4. apply wf_instb_ok in H1. split; [now apply ex_oracles|]. split; [exact sort_ref_spec|]. split; [exact H1|].
  split; [now apply packingb_ok|]. split; [split; [now apply Qle_bool_iff|now apply Z.eqb_eq]|]. split; [apply mip_solver_ok|apply mip_cont].
Qed.

Lemma cont_example :
  (let w := mip_world exPair in oracles_ok w exPair /\ sort_spec (w_sort w) /\ wf_inst exPair /\ packing exPair /\ eps_ok exPair /\ solver_ok w exPair 0 0 /\
    exact_if_cont w exPair) /\ (i_eps exPair < 1)%Q /\ i_cont exPair = true /\ (0 < qsum (i_c exPair))%Q /\
  (forall s i, s < i_k exPair -> i < i_m exPair -> (qsum (i_c exPair) <= 1000 * rhs exPair s i)%Q) /\ near exPair /\
  (forall sp ini mth merger bm, sp <> SplitOther -> ini <> InitOther -> mth <> OtherM ->
    calm (mip_world exPair) (ex_cfg sp ini mth merger bm) /\ options_ok (mip_world exPair) exPair (ex_cfg sp ini mth merger bm)) /\
  (let '(r, s) := run (mip_world exPair) exPair ex_plain 3 in r = Ok Feasible /\ a_iter s = 1) /\
  (let '(r, s) := run (mip_world exPair) exPair (ex_cfg SplitCost InitCost Belotti false true) 3 in
    r = Ok Feasible /\ a_iter s = 2 /\ a_vUB s = Fin (1794 # 529)) /\
  (let '(r, s) := run (mip_world exPair) exPair (ex_cfg SplitCost InitCost Belotti true true) 3 in r = Ok Feasible /\ a_iter s = 2).
Proof.
  split; [exact (mip_hyps exPair eq_refl eq_refl eq_refl eq_refl)|]. split; [reflexivity|]. split; [reflexivity|]. split; [reflexivity|].
  assert (W : wf_inst exPair) by (apply wf_instb_ok; reflexivity). assert (P : packing exPair) by (apply packingb_ok; reflexivity).
  split; [apply rhsb_ok; vm_compute; reflexivity|]. split; [apply near_cont; auto; apply rhsb_ok; vm_compute; reflexivity|].
  split. { intros sp ini mth merger bm H1 H2 H3. split; [now apply mip_calm|]. apply mip_options; auto. vm_compute. lia. }
  split; [vm_compute; auto|]. split; vm_compute; auto.
Qed.

(** The hypotheses hold and the run stops at the sanity check. *)
Definition close_check (w : world) (cf : cfg) (s : ast) : bool :=
  match relaxation cf s (c_limit cf) with
  | Ok m => match w_solve w 0 m, a_xUB s with
            | Solved x _ _ _, Some y => negb (a_merged s) && allclose x y
            | _, _ => false
            end
  | _ => false
  end.
Lemma close_check_ok w I cf s : i_cont I = true -> close_check w cf s = true -> close_failed w I cf AssertionError s.
Proof.
  intros CO H. split; [exact CO|]. unfold close_check in H. destruct (relaxation cf s (c_limit cf)) as [m|] eqn:ER; [|discriminate].
  destruct (w_solve w 0 m) as [x z v b| | |] eqn:ES; try discriminate. destruct (a_xUB s) as [y|] eqn:EX; [|discriminate].
  apply andb_prop in H as [H1 H2]. exists (c_limit cf), m, 0, x, z, v, b. split; [exact ER|]. split; [exact ES|]. split; [reflexivity|].
  split; [now destruct (a_merged s)|]. exists y. split; [reflexivity|]. now apply allclose_spec.
Qed.
Lemma close_witness :
  (let w := mip_world exSmall in oracles_ok w exSmall /\ sort_spec (w_sort w) /\ wf_inst exSmall /\ packing exSmall /\ eps_ok exSmall /\ solver_ok w exSmall 0 0 /\
    exact_if_cont w exSmall) /\ (i_eps exSmall < 1)%Q /\ i_cont exSmall = true /\ (0 < qsum (i_c exSmall))%Q /\
  (forall s i, s < i_k exSmall -> i < i_m exSmall -> (qsum (i_c exSmall) <= 1000 * rhs exSmall s i)%Q) /\
  calm (mip_world exSmall) ex_plain /\ options_ok (mip_world exSmall) exSmall ex_plain /\ c_merger ex_plain = false /\
  exists s, run (mip_world exSmall) exSmall ex_plain (i_k exSmall) = (Err AssertionError, s) /\ close_failed (mip_world exSmall) exSmall ex_plain AssertionError s.
Proof.
  split; [exact (mip_hyps exSmall eq_refl eq_refl eq_refl eq_refl)|]. split; [reflexivity|]. split; [reflexivity|]. split; [reflexivity|].
  split; [apply rhsb_ok; vm_compute; reflexivity|]. split; [now apply mip_calm|]. split.
  { apply mip_options; try discriminate; [apply wf_instb_ok; reflexivity|vm_compute; lia]. }
  split; [reflexivity|]. start_run (run (mip_world exSmall) exSmall ex_plain (i_k exSmall)). split; [exact E|]. apply close_check_ok; [reflexivity|]. vm_compute. reflexivity.
Qed.
