(** Outcomes of all runs (C82). *)
From Verif Require Import Base BaseFacts Spec Instance OptModels Initial Bounds Refine CostRefine Merge Violations Adaptive AdaptiveSpec AdaptiveBounds NearSpec
  AdaptiveAny OutsideSpec.

Lemma steady_regular w I cf : steady w I -> regular w I cf (from_outside w cf) (late w cf).
Proof.
  intros [H1 H2 H3]. constructor; auto.
  - intros t E. left. split; [reflexivity|]. left. eauto.
  - intros t m E. left. split; [reflexivity|]. right. eauto.
  - intros t m E. destruct (m_time m) as [q|] eqn:EM.
    + right. right. split; [discriminate|]. intro N. right. right. split; [reflexivity|]. exists t, m. split; [congruence|exact N].
    + destruct (H2 t m E EM); auto.
  - intros t L. assert (X : late w cf) by (exists t; exact L). split; [exact X|]. right. left. auto.
Qed.

Section Outside.
  Variable w : world.
  Variable I : inst.
  Variable cf : cfg.
  Variables tau delta : Q.
  Hypothesis HO : oracles_ok w I.
  Hypothesis HSo : sort_spec (w_sort w).
  Hypothesis HW : wf_inst I.
  Hypothesis HP : packing I.
  Hypothesis HEps : eps_ok I.
  Hypothesis HE1 : (i_eps I < 1)%Q.
  Hypothesis HS : solver_ok w I tau delta.
  Hypothesis HTau : eps_within I tau.
  Hypothesis HCTau : i_cont I = true -> tau = 0%Q.
  Hypothesis HC : steady w I.
  Hypothesis HOp : options_ok w I cf.
  Hypothesis HT : near I.
  Hypothesis HN : 0 < i_n I.

  Lemma outcomes fuel r s : run w I cf fuel = (r, s) ->
    (exists v, r = Ok v /\ verdict_ok w cf v) \/ r = Err NonTermination \/ zero_bound r s \/
    exists e, r = Err e /\ (close_failed w I cf e s \/ from_outside w cf e).
  Proof. exact (safe_run_out w I cf tau delta _ _ HO HSo HW HP HEps HE1 HS HTau HCTau (steady_regular w I cf HC) HOp HT HN fuel r s). Qed.
  Lemma outcomes_end fuel r s : c_merger cf = false -> i_k I - tolerated I <= fuel -> run w I cf fuel = (r, s) ->
    (exists v, r = Ok v /\ verdict_ok w cf v /\ a_iter s <= i_k I - tolerated I) \/ zero_bound r s \/
    exists e, r = Err e /\ (close_failed w I cf e s \/ from_outside w cf e).
  Proof. exact (ends_run_out w I cf tau delta _ _ HO HSo HW HP HEps HE1 HS HTau HCTau (steady_regular w I cf HC) HOp HT HN fuel r s). Qed.
  Lemma outcomes_pos : (exists y, det_feasible I (seq 0 (i_k I)) 0 y /\ (0 < obj I y)%Q) -> forall fuel r s, run w I cf fuel = (r, s) ->
    (exists v, r = Ok v /\ verdict_ok w cf v) \/ r = Err NonTermination \/ exists e, r = Err e /\ (close_failed w I cf e s \/ from_outside w cf e).
  Proof. exact (safe_pos_out w I cf tau delta _ _ HO HSo HW HP HEps HE1 HS HTau HCTau (steady_regular w I cf HC) HOp HT HN). Qed.
  Lemma outcomes_pos_end : (exists y, det_feasible I (seq 0 (i_k I)) 0 y /\ (0 < obj I y)%Q) -> forall fuel r s, c_merger cf = false ->
    i_k I - tolerated I <= fuel -> run w I cf fuel = (r, s) ->
    (exists v, r = Ok v /\ verdict_ok w cf v /\ a_iter s <= i_k I - tolerated I) \/ exists e, r = Err e /\ (close_failed w I cf e s \/ from_outside w cf e).
  Proof. exact (never_raises_out w I cf tau delta _ _ HO HSo HW HP HEps HE1 HS HTau HCTau (steady_regular w I cf HC) HOp HT HN). Qed.
End Outside.
