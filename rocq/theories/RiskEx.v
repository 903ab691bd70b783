(** Examples for risk levels just below a multiple of 1/N (C77). *)
From Coq Require Import Qabs.
From Verif Require Import Rounding RoundingFacts Floats.
From Verif Require Import Base BaseFacts Spec Instance InstanceFacts OptModels OptFacts Initial Bounds Refine CostRefine Merge Violations ViolTable BigM Adaptive AdaptiveSpec
  AgreeSpec AdaptiveEx AdaptiveEx2 Ex BruteForce BruteForceFacts BigMEx Milp EndEx CycleEx AdaptiveWp ViolationsFacts RiskFacts.

(** The enumerating solver with a tolerance of 1e-6 on the chance constraint. *)
Definition slack_row (c : cstr) : cstr := match c with CChance p r => CChance p (r - tol6)%Q | _ => c end.
Definition slack_model (m : model) : model :=
  mkModel (m_n m) (m_cont m) (m_nz m) (m_obj m) (m_const m) (map slack_row (m_cstrs m)) (m_start m) (m_gap m) (m_time m) (m_lazy m).
Definition slack_world (I : inst) : world := ex_world I (fun _ m => brute (slack_model m)).

Lemma slack_in m x z : model_ok 0 m x z -> model_ok 0 (slack_model m) x z.
Proof.
  intros (H1 & H2 & H3 & H4). split; [exact H1|]. split; [exact H2|]. split; [exact H3|]. cbn [slack_model m_cstrs]. rewrite Forall_map. revert H4. apply Forall_impl.
  intros [a b|a [|b|]|a b M s|s a b|p r|s]; cbn; intro H; try exact H; unfold tol6; lra.
Qed.
Lemma slack_out m x z : model_ok 0 (slack_model m) x z -> model_ok tol6 m x z.
Proof.
  intros (H1 & H2 & H3 & H4). split; [exact H1|]. split; [exact H2|]. split; [exact H3|]. cbn [slack_model m_cstrs] in H4. rewrite Forall_map in H4. revert H4. apply Forall_impl.
  intros [a b|a [|b|]|a b M s|s a b|p r|s]; cbn; intro H; try exact H; unfold tol6 in *; lra.
Qed.
Lemma slack_ok m : outcome_ok tol6 m (brute (slack_model m)).
Proof.
  assert (B := brute_ok0 (slack_model m)). destruct (brute (slack_model m)) as [x z v b| | |]; try exact B.
  - destruct B as (B1 & B2 & B3 & B4). split; [now apply slack_out|]. split; [exact B2|]. split; [exact B3|].
    intros x' z' A. exact (B4 x' z' (slack_in _ _ _ A)).
  - intros x z A. exact (B x z (slack_in _ _ _ A)).
Qed.
Lemma slack_solver I : wf_inst I -> solver_ok (slack_world I) I tol6 0.
Proof.
  intro HW. constructor.
  - unfold tol6. lra.
  - lra.
  - intros t m. apply slack_ok.
  - intros S v x (t & z & b & E) y Hy. cbn [slack_world ex_world w_solve] in E. assert (B := slack_ok (deter_model I S)). rewrite E in B.
    apply brute_tight in E. subst b. now apply (deter_bound I S tol6 x z v v B).
  - intros t m x z v b _ E. cbn [slack_world ex_world w_solve] in E. apply brute_tight in E. subst b. lra.
Qed.
Lemma slack_calm I cf : (0 < c_limit cf)%Q -> calm (slack_world I) cf.
Proof.
  intro HL. constructor; cbn [slack_world ex_world w_intr w_solve w_clock].
  - reflexivity.
  - intros _ m. unfold brute. destruct (m_cont _); [discriminate|]. destruct (brute_candidates _); [discriminate|]. destruct (best _ _ _). discriminate.
  - intros _ m C. assert (X := brute_exact (slack_model m) C). now apply exact_finished in X.
  - intros t t' _. cbn. lra.
  - intros t. lra.
Qed.
Lemma slack_options I sp ini mth merger bm : wf_inst I -> tolerated I + 1 <= 50 -> sp <> SplitOther -> ini <> InitOther -> mth <> OtherM ->
  options_ok (slack_world I) I (ex_cfg sp ini mth merger bm).
Proof. intros HW H H1 H2 H3. destruct (brute_options I sp ini mth merger bm HW H H1 H2 H3) as [A B C D]. constructor; assumption. Qed.

(** The optimal value by enumeration. *)
Definition best_point (I : inst) (x : list Q) : bool :=
  in_domb I x && Qle_bool (Qn (nviol I 0 x)) (i_eps I * Qn (i_k I)) &&
  forallb (fun y => Qle_bool (obj I y) (obj I x) || negb (Qle_bool (Qn (nviol I 0 y)) (i_eps I * Qn (i_k I)))) (all_bin (i_n I)).

(** 58% of 50 scenarios; the double is 0.57999999999999996. *)
Definition level58 : Q := 5224175567749775 # 9007199254740992.
(** Item one violates 29 scenarios; every subset of the starting partition contains one of them. *)
Definition exLost (eps : Q) : inst :=
  mkInst 3 1 50 false eps [10; 10; 5]%Q (repeat [[2; 2; 2]]%Q 29 ++ repeat [[1; 1; 1]]%Q 21) (repeat [1%Q] 50).
(** Item one violates 29 scenarios, none of which is in the first subset. *)
Definition exOver (eps : Q) : inst :=
  mkInst 3 1 50 false eps [10; 10; 5]%Q ([[1; 2; 1]]%Q :: repeat [[2; 2; 1]]%Q 28 ++ repeat [[1; 2; 1]]%Q 20 ++ [[[2; 2; 1]]%Q]) (repeat [1%Q] 50).
(** One third of six scenarios, with six digits. *)
Definition exThird : inst :=
  mkInst 3 1 6 false (333333 # 1000000) [10; 10; 5]%Q (concat (repeat [[[1; 2; 1]]; [[2; 1; 1]]]%Q 3)) (repeat [1%Q] 6).
Lemma best_optimum I x v : i_cont I = false -> best_point I x = true -> (obj I x == v)%Q -> optimum I v.
Proof.
  intros HC H E. unfold best_point in H. apply andb_prop in H as [H1 H2]. apply andb_prop in H1 as [H0 H1]. split.
  - exists x. split; [now apply cc_feasible_dec|exact E].
  - intros y [Dy Fy]. destruct (binary_point I y HC Dy) as (b & Hb & EO & _ & EV). rewrite EO, <- E. rewrite forallb_forall in H2. specialize (H2 b Hb).
    apply orb_prop in H2 as [H2|H2]; [now apply Qle_bool_iff|]. rewrite EV in Fy. apply Qle_bool_iff in Fy. rewrite Fy in H2. discriminate.
Qed.

(** The level is the double nearest to 0.58. *)
Lemma level58_double : (level58 == rnd53 (58 # 100))%Q /\ (exists v, b64_val (b64_of_Q (58 # 100)) = Some v /\ (v == level58)%Q) /\ b64_floor (58 # 100) 50 = Some 28%Z.
Proof. split; [vm_compute; reflexivity|]. split; [eexists; split; vm_compute; reflexivity|vm_compute; reflexivity]. Qed.

Lemma lost_hyps (I : inst) : wf_instb I = true -> packingb I = true -> i_cont I = false -> tenthsb I = true -> tolerated I + 1 <= 50 ->
  (let w := brute_world I in oracles_ok w I /\ sort_spec (w_sort w) /\ solver_ok w I 0 0 /\ calm w ex_plain /\ options_ok w I ex_plain) /\
  wf_inst I /\ packing I /\ tight I.
Proof.
  intros H1 H2 HC H3 H4. apply wf_instb_ok in H1. split; [|split; [exact H1|split; [now apply packingb_ok|now apply tenthsb_tight]]].
  cbv zeta. split; [now apply ex_oracles|]. split; [exact sort_ref_spec|]. split; [now apply brute_solver_ok|]. split; [now apply brute_calm|].
  apply brute_options; auto; discriminate.
Qed.

(** With 0.58 and 50 scenarios a point that violates 58% of them is lost. *)
Lemma level_lost : exists I eps, let w := brute_world I in
  ((oracles_ok w I /\ sort_spec (w_sort w) /\ solver_ok w I 0 0 /\ calm w ex_plain /\ options_ok w I ex_plain) /\
  wf_inst I /\ packing I /\ tight I) /\ i_cont I = false /\
  (i_eps I == rnd53 eps)%Q /\ eps = (58 # 100)%Q /\ I = exLost (i_eps I) /\ optimum (exLost eps) 10 /\
  (let '(r, s) := run w I ex_plain 1 in r = Ok Feasible /\ a_vLB s = Fin 0 /\ a_vUB s = Fin 0 /\ a_xLB s = Some [0; 0; 0]%Q).
Proof.
  exists (exLost level58), (58 # 100)%Q. cbv zeta. split; [apply lost_hyps; try reflexivity; vm_compute; lia|]. split; [reflexivity|].
  split; [exact (proj1 level58_double)|]. split; [reflexivity|]. split; [reflexivity|].
  split; [apply (best_optimum _ [1; 0; 0]%Q); vm_compute; reflexivity|]. vm_compute. auto.
Qed.

(** Elsewhere the run reports a point that its own feasibility check rejects, with both bounds at twice the optimum. *)
Lemma level_over : exists I, let w := brute_world I in
  ((oracles_ok w I /\ sort_spec (w_sort w) /\ solver_ok w I 0 0 /\ calm w ex_plain /\ options_ok w I ex_plain) /\
  wf_inst I /\ packing I /\ tight I) /\ i_cont I = false /\ (i_eps I == rnd53 (58 # 100))%Q /\ optimum I 5 /\
  (let '(r, s) := run w I ex_plain 1 in r = Ok GapReached /\ a_vLB s = Fin 10 /\ a_vUB s = Fin 10 /\ a_xLB s = Some [1; 0; 0]%Q) /\
  fst (fst (fst (fst (is_feasible (w_norm w) I [1; 0; 0]%Q)))) = false /\ ~ cc_feasible I tol6 [1; 0; 0]%Q.
Proof.
  exists (exOver level58). cbv zeta. split; [apply lost_hyps; try reflexivity; vm_compute; lia|]. split; [reflexivity|].
  split; [exact (proj1 level58_double)|].
  split; [apply (best_optimum _ [0; 0; 1]%Q); vm_compute; reflexivity|]. split; [vm_compute; auto|]. split; [vm_compute; reflexivity|].
  intros [_ F]. apply Qle_bool_iff in F. vm_compute in F. discriminate.
Qed.

(** A solver that is right within 1e-6 makes the run raise. *)
Lemma level_raises : exists w I, oracles_ok w I /\ sort_spec (w_sort w) /\ wf_inst I /\ packing I /\ eps_ok I /\ (i_eps I < 1)%Q /\
  solver_ok w I tol6 0 /\ calm w ex_plain /\ options_ok w I ex_plain /\ tight I /\ i_cont I = false /\ 0 < i_n I /\
  (exists y, det_feasible I (seq 0 (i_k I)) 0 y /\ (0 < obj I y)%Q) /\ ~ eps_within I tol6 /\
  (let '(r, s) := run w I ex_plain 5 in r = Err AssertionError /\ a_iter s = 2 /\ a_part s = [[0; 2; 4]; [5; 3]; [1]]).
Proof.
  exists (slack_world exThird), exThird. assert (W : wf_inst exThird) by (apply wf_instb_ok; reflexivity).
  split; [now apply ex_oracles|]. split; [exact sort_ref_spec|]. split; [exact W|]. split; [now apply packingb_ok|]. split; [split; vm_compute; [discriminate|reflexivity]|].
  split; [reflexivity|]. split; [now apply slack_solver|]. split; [now apply slack_calm|].
  split; [apply slack_options; auto; try discriminate; vm_compute; lia|]. split; [apply tenthsb_tight; reflexivity|]. split; [reflexivity|]. split; [cbn; lia|].
  split. { exists [0; 0; 1]%Q. split; [split; [apply in_domb_ok; reflexivity|]|reflexivity].
    intros s Hs. apply satb_iff. apply in_seq in Hs. cbn in Hs. do 6 (destruct s as [|s]; [vm_compute; reflexivity|]). lia. }
  split; [intro H; vm_compute in H; discriminate|]. vm_compute. auto.
Qed.

(** Three scenarios, the last of which allows nothing: the two methods differ. *)
Definition exThree : inst :=
  mkInst 3 1 3 false (333333 # 1000000) [10; 10; 5]%Q [[[1; 1; 1]]; [[1; 1; 1]]; [[2; 2; 2]]]%Q (repeat [1%Q] 3).
Lemma level_methods : exists w I, oracles_ok w I /\ sort_spec (w_sort w) /\ wf_inst I /\ packing I /\ eps_ok I /\ (i_eps I < 1)%Q /\
  solver_ok w I tol6 0 /\ calm w ex_plain /\ options_ok w I ex_plain /\ tight I /\ i_cont I = false /\ ~ eps_within I tol6 /\ optimum I 0 /\
  (let '(r, s) := run w I ex_plain 1 in r = Ok Feasible /\ a_vLB s = Fin 0 /\ a_vUB s = Fin 0 /\ a_xLB s = Some [0; 0; 0]%Q) /\
  (forall um, let '(r, s) := milp_run w I ex_plain um Naive in (exists t, r = Ok t) /\ a_vLB s = Fin 10 /\ a_vUB s = Fin 10 /\ a_xLB s = Some [1; 0; 0]%Q) /\
  fst (fst (fst (fst (is_feasible (w_norm w) I [1; 0; 0]%Q)))) = false.
Proof.
  exists (slack_world exThree), exThree. assert (W : wf_inst exThree) by (apply wf_instb_ok; reflexivity).
  split; [now apply ex_oracles|]. split; [exact sort_ref_spec|]. split; [exact W|]. split; [now apply packingb_ok|]. split; [split; vm_compute; [discriminate|reflexivity]|].
  split; [reflexivity|]. split; [now apply slack_solver|]. split; [now apply slack_calm|].
  split; [apply slack_options; auto; try discriminate; vm_compute; lia|]. split; [apply tenthsb_tight; reflexivity|]. split; [reflexivity|].
  split; [intro H; vm_compute in H; discriminate|]. split; [apply (best_optimum _ [0; 0; 0]%Q); vm_compute; reflexivity|]. split; [vm_compute; auto|].
  split; [intros [|]; vm_compute; eauto|]. vm_compute. reflexivity.
Qed.
