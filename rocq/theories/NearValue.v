(** Bounds and values when feasibility within 1e-6 brings less than 0.001 (C94). *)
From Verif Require Import Base BaseFacts Spec Instance InstanceFacts OptModels Initial Bounds Refine CostRefine Merge Violations BigM Adaptive AdaptiveSpec AdaptiveBounds
  NearSpec AdaptiveEnd NearFacts.

Section NearValue.
  Variable w : world.
  Variable I : inst.
  Variable cf : cfg.
  Variables tau delta : Q.
  Hypothesis HO : oracles_ok w I.
  Hypothesis HSo : sort_spec (w_sort w).
  Hypothesis HW : wf_inst I.
  Hypothesis HP : packing I.
  Hypothesis HEps : eps_ok I.
  Hypothesis HS : solver_ok w I tau delta.
  Hypothesis HT : near I.
  Lemma upper_near u l : upper_ok I (Fin u) l -> lower_ok I 0 l -> upper_bound I u.
  Proof.
    clear - HT. intros B1 B2 y Fy. destruct (B1 y Fy) as [H|H]; [now apply Qle_bool_iff|].
    destruct B2 as [B2|(v & x & EL & Fx & Hx)]; [rewrite B2 in H; discriminate|]. rewrite EL in *. apply Qle_bool_iff in H.
    destruct (HT x Fx) as (y' & Fy' & Hy'). destruct (B1 y' Fy') as [H'|H']; apply Qle_bool_iff in H'; lra.
  Qed.
  Lemma near_upper fuel r s : run w I cf fuel = (r, s) -> forall u, a_vUB s = Fin u -> upper_bound I u.
  Proof.
    intros E u EU. destruct (bracket_run w I cf tau delta HO HSo HW HP HEps HS fuel r s E) as (_ & l & _ & L & U). rewrite EU in U. exact (upper_near u l U L).
  Qed.
  Lemma near_lower fuel r s : run w I cf fuel = (r, s) -> forall l, a_vLB s = Fin l -> exists y, cc_feasible I 0 y /\ (l < obj I y + delta + (1 # 1000))%Q.
  Proof.
    intros E l EL. destruct (bracket_run w I cf tau delta HO HSo HW HP HEps HS fuel r s E) as [[L|(v & x & L & Fx & Hx)] _]; [congruence|].
    destruct (HT x Fx) as (y & Fy & Hy). exists y. split; [exact Fy|]. assert (v = l) by congruence. subst v. lra.
  Qed.
  Lemma near_value fuel s : run w I cf fuel = (Ok Feasible, s) ->
    exists v, a_vUB s = Fin v /\ a_vLB s = Fin v /\ upper_bound I v /\ exists y, cc_feasible I 0 y /\ (v < obj I y + delta + (1 # 1000))%Q.
  Proof.
    intro E. assert (E' := E). apply run_explore in E' as (r0 & s0 & E' & [(-> & -> & NF)|(-> & U & X & L & _)]); [now contradiction NF|].
    apply (explore_out w I cf tau delta HO HSo HW HP HEps HS) in E' as [B H]. destruct (H _ eq_refl) as [_ [EX _]]. destruct (EX eq_refl) as (x & u & vb & X1 & X2 & X3 & X4).
    exists u. assert (EU : a_vUB s = Fin u) by congruence. assert (EL : a_vLB s = Fin u) by congruence. split; [exact EU|]. split; [exact EL|].
    split; [exact (near_upper fuel _ s E u EU)|exact (near_lower fuel _ s E u EL)].
  Qed.
  Lemma near_gap fuel s : (0 <= c_gap cf)%Q -> run w I cf fuel = (Ok GapReached, s) ->
    exists l u, a_vLB s = Fin l /\ a_vUB s = Fin u /\ (0 < l)%Q /\ (u <= l * (1 + c_gap cf))%Q /\ upper_bound I u /\
      exists y, cc_feasible I 0 y /\ (l < obj I y + (1 # 1000))%Q.
  Proof.
    intros G E. destruct (gap_optimal w I cf tau delta HO HSo HW HP HEps HS fuel s G E) as (x & l & u & _ & EL & EU & Fx & L0 & Lx & UL & _).
    exists l, u. split; [exact EL|]. split; [exact EU|]. split; [exact L0|]. split; [exact UL|]. split; [exact (near_upper fuel _ s E u EU)|].
    destruct (HT x Fx) as (y & Fy & Hy). exists y. split; [exact Fy|lra].
  Qed.
End NearValue.

Lemma cont_value w I cf delta : oracles_ok w I -> sort_spec (w_sort w) -> wf_inst I -> packing I -> eps_ok I -> solver_ok w I 0 delta ->
  i_cont I = true -> (forall s i, s < i_k I -> i < i_m I -> (qsum (i_c I) <= 1000 * rhs I s i)%Q) ->
  forall fuel r s, run w I cf fuel = (r, s) ->
  (forall u, a_vUB s = Fin u -> upper_bound I u) /\
  (forall l, a_vLB s = Fin l -> exists y, cc_feasible I 0 y /\ (l < obj I y + delta + (1 # 1000))%Q) /\
  (r = Ok Feasible -> exists v, a_vUB s = Fin v /\ a_vLB s = Fin v).
Proof.
  intros HO HSo HW HP HE HS HC HR fuel r s E. assert (N := near_cont I HW HP HC HR).
  split; [exact (near_upper w I cf 0 delta HO HSo HW HP HE HS N fuel r s E)|]. split; [exact (near_lower w I cf 0 delta HO HSo HW HP HE HS N fuel r s E)|].
  intros ->. destruct (near_value w I cf 0 delta HO HSo HW HP HE HS N fuel s E) as (v & A & B & _). eauto.
Qed.
