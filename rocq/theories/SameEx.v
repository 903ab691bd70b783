(** Two different successive solutions rejected as equal (C45). *)
From Coq Require Import Qabs Qminmax.
From Verif Require Import Base BaseFacts Spec Instance InstanceFacts OptModels Bounds Refine CostRefine Merge Knapsack Violations BigM
  Adaptive AdaptiveSpec BruteForceFacts NearSpec ContFacts AdaptiveEx AdaptiveEx2 Line Main.

(** One continuous variable; four scenarios with bounds 0.5, 0.3, 0.5 and 0.499996; one of them may be violated. *)
Definition exSame : inst :=
  mkInst 1 1 4 true (1 # 4) [1]%Q [[[2]]; [[1 # 1000]]; [[2]]; [[10000]]]%Q [[1]; [3 # 10000]; [1]; [499996 # 100]]%Q.
Definition line_world (I : inst) : world := ex_world I (fun _ m => line m).

Lemma line_solver_ok I : wf_inst I -> i_cont I = false \/ i_n I = 1 -> forall m, m_n m = i_n I -> m_cont m = i_cont I -> outcome_exact m (line m).
Proof. intros _ H m E1 E2. apply line_exact. rewrite E1, E2. exact H. Qed.

Lemma same_wf : wf_inst exSame.
Proof. unfold wf_inst. cbn. repeat split; try lia; repeat constructor; cbn; lia. Qed.

Lemma same_packing : packing exSame.
Proof. apply packingb_ok. vm_compute. reflexivity. Qed.

Lemma same_optimal : cc_feasible exSame 0 [124999 # 250000]%Q /\ forall y, cc_feasible exSame 0 y -> (obj exSame y <= 124999 # 250000)%Q.
Proof.
  split.
  - split; [split; [split; [reflexivity|repeat constructor; cbn; lra]|discriminate]|]. vm_compute. discriminate.
  - intros y [[[L B] _] V]. destruct y as [|a [|]]; try discriminate. clear L B.
    assert (H : count (fun s => negb (satb exSame 0 [a] s)) (seq 0 4) <= 1).
    { apply Qn_le. eapply Qle_trans; [exact V|]. vm_compute. discriminate. }
    cbn [seq count filter length] in H.
    assert (S : forall s, satb exSame 0 [a] s = true -> sat exSame 0 [a] s) by (intro s; apply satb_iff).
    destruct (satb exSame 0 [a] 1) eqn:E1.
    + apply S in E1. assert (X := E1 0 ltac:(cbn; lia)). cbn in X |- *. lra.
    + destruct (satb exSame 0 [a] 3) eqn:E3.
      * apply S in E3. assert (X := E3 0 ltac:(cbn; lia)). cbn in X |- *. lra.
      * exfalso. destruct (satb exSame 0 [a] 0), (satb exSame 0 [a] 2); cbn in H; lia.
Qed.

Definition same_check (cf : cfg) (s : ast) : bool :=
  match relaxation cf s (c_limit cf) with
  | Ok m => match line m with Solved x _ _ _ => Qeq_bool (obj exSame x) (124999 # 250000) | _ => false end
  | _ => false
  end.
Lemma same_check_ok cf s : same_check cf s = true -> exists m x z v b,
  relaxation cf s (c_limit cf) = Ok m /\ line m = Solved x z v b /\ (obj exSame x == 124999 # 250000)%Q.
Proof.
  unfold same_check. destruct (relaxation cf s (c_limit cf)) as [m|]; [|discriminate]. destruct (line m) as [x z v b| | |] eqn:E; try discriminate.
  intro H. exists m, x, z, v, b. split; [reflexivity|]. split; [exact E|]. now apply Qeq_bool_iff.
Qed.
Lemma same_run (cf : cfg) : cf = ex_plain \/ cf = cfg3 50 -> exists s, run (line_world exSame) exSame cf 20 = (Err AssertionError, s) /\
  a_vLB s = Fin (124999 # 250000) /\ a_xUB s = Some [1 # 2]%Q /\ exists m x z v b,
  relaxation cf s (c_limit cf) = Ok m /\ line m = Solved x z v b /\ (obj exSame x == 124999 # 250000)%Q.
Proof.
  intros [-> | ->].
  - start_run (run (line_world exSame) exSame ex_plain 20). split; [exact E|]. split; [reflexivity|]. split; [reflexivity|].
    apply same_check_ok. vm_compute. reflexivity.
  - start_run (run (line_world exSame) exSame (cfg3 50) 20). split; [exact E|]. split; [reflexivity|]. split; [reflexivity|].
    apply same_check_ok. vm_compute. reflexivity.
Qed.

Lemma check_spec cont merged x v xUB vUB : (forall y, xUB = Some y -> length x = length y) ->
  (check_results cont merged x v xUB vUB = Err AssertionError <->
   cont = true /\ ((merged = false /\ exists y, xUB = Some y /\ close_to x y) \/
                   ((merged = true \/ xUB <> None) /\ ext_leb (Fin v) (ext_add vUB (1 # 100000000)) = false))).
Proof.
  intro L. unfold check_results. generalize (ext_leb (Fin v) (ext_add vUB (1 # 100000000))). intro le. destruct cont; [|split; [discriminate|intros [H _]; discriminate H]].
  destruct merged; cbn [negb].
  - destruct le; cbn; split; try discriminate; auto.
    intros [_ [[H _]|[_ H]]]; discriminate H.
  - destruct xUB as [y|]; cbn [rbind].
    + clear L. pose proof (allclose_spec x y) as A. destruct (allclose x y); cbn.
      * split; [|reflexivity]. intros _. split; [reflexivity|]. left. split; [reflexivity|]. exists y. split; [reflexivity|]. now apply A.
      * destruct le; cbn.
        -- split; [intro X; discriminate X|]. intros [_ [(_ & z & E & C)|[_ H]]]; [|discriminate H]. injection E as <-. apply A in C. discriminate C.
        -- split; [|reflexivity]. intros _. split; [reflexivity|]. right. split; [right; discriminate|reflexivity].
    + split; [discriminate|]. intros [_ [(_ & z & E & _)|[[H|H] _]]]; [discriminate E|discriminate H|congruence].
Qed.

Lemma spurious : wf_inst exSame /\ packing exSame /\ oracles_ok (line_world exSame) exSame /\
  (cc_feasible exSame 0 [124999 # 250000]%Q /\ forall y, cc_feasible exSame 0 y -> (obj exSame y <= 124999 # 250000)%Q) /\
  forall cf, cf = ex_plain \/ cf = cfg3 50 -> exists s, run (line_world exSame) exSame cf 20 = (Err AssertionError, s) /\
    a_vLB s = Fin (124999 # 250000) /\ a_xUB s = Some [1 # 2]%Q /\ exists m x z v b,
    relaxation cf s (c_limit cf) = Ok m /\ line m = Solved x z v b /\ (obj exSame x == 124999 # 250000)%Q.
Proof.
  split; [exact same_wf|]. split; [exact same_packing|]. split; [apply ex_oracles, same_wf|]. split; [exact same_optimal|]. exact same_run.
Qed.

(** The same with 0.4 instead of 0.499996. *)
Definition exGood : inst :=
  mkInst 1 1 4 true (1 # 4) [1]%Q [[[2]]; [[1 # 1000]]; [[2]]; [[10000]]]%Q [[1]; [3 # 10000]; [1]; [4000]]%Q.
