(** When the bounds printed are numbers (C75). *)
From Coq Require Import Lia Lqa.
From Verif Require Import Base Spec BaseFacts Instance OptModels Bounds Refine CostRefine Merge Violations BigM Adaptive AdaptiveSpec AdaptiveWp AdaptiveLog.
Local Open Scope nat_scope.

Section Known.
  Variable w : world.
  Variable I : inst.
  Variable cf : cfg.

  (** vUB is a number or +inf, vLB a number or -inf; numbers where asked. *)
  Definition kn (u l : bool) (s : ast) : Prop :=
    a_vUB s <> NInf /\ a_vLB s <> PInf /\ (u = true -> a_vUB s <> PInf) /\ (l = true -> a_vLB s <> NInf).

  Ltac kt := intros; assumption.
  Ltac pt := repeat (pres_step; try (intros; assumption)).

  Section Frame.
    Variables u l : bool.
    Lemma kn_t s t : kn u l s -> kn u l (set_t t s). Proof. kt. Qed.
    Hint Resolve kn_t : core.
    Lemma kn_vLB v np s : kn u l s -> kn u l (set_vLB (Fin v) np s).
    Proof. intros (A & B & C & D). repeat split; cbn; auto; discriminate. Qed.
    Lemma kn_vUB v np s : kn u l s -> kn u l (set_vUB (Fin v) np s).
    Proof. intros (A & B & C & D). repeat split; cbn; auto; discriminate. Qed.
    Lemma kn_improve cands : pres (kn u l) (improve_vlb w I cands).
    Proof. unfold improve_vlb. pt. now apply kn_vLB. Qed.
    Lemma kn_store : pres (kn u l) (store_info w). Proof. unfold store_info. pt. Qed.
    Lemma kn_split : pres (kn u l) (split_step w I cf).
    Proof. apply pres_split0; try kt. apply kn_improve. Qed.
    Lemma kn_merge x R nc : pres (kn u l) (merge_step w I cf x R nc).
    Proof. apply pres_merge0; try kt. apply kn_improve. Qed.
    Lemma kn_next : pres (kn u l) (next_iteration w cf).
    Proof. unfold next_iteration. pt. Qed.
    Lemma kn_prologue b : pres (kn u l) (prologue w I cf b).
    Proof.
      unfold prologue, partition_cost. apply pres_get; intro s0. apply pres_bind; [pt|intros [costs sols]].
      do 3 (apply pres_bind; [pt|intro]). apply pres_bind; [apply kn_improve|intro]. pt.
    Qed.
    Lemma kn_construct : pres (kn u l) (construct w I cf).
    Proof.
      unfold construct, setup_initial_partition, all_scenario_costs. do 3 (apply pres_bind; [pt|intro]).
      apply pres_bind; [|intro; pt]. do 2 (apply pres_bind; [pt|intro]). apply pres_bind; [destruct (c_init cf); pt|intro].
      pt. now apply kn_vUB.
    Qed.
    Lemma kn_lower x : pres (kn u l) (lower_bound_step w I cf x).
    Proof.
      unfold lower_bound_step. apply pres_bind; [apply pres_deterministic; kt|]. intros [y v]. apply pres_get; intro s0.
      apply pres_bind; [pt; now apply kn_vLB|intro]. apply pres_bind; [pt|intro]. apply pres_bind; [apply kn_store|intro; pt].
    Qed.
  End Frame.

  (** After a call of the lower bounder, vLB is a number. *)
  Lemma lower_known u x s : kn u false s -> wp (fun _ _ => True) (lower_bound_step w I cf x) (fun _ => kn u true) s.
  Proof.
    intro H. unfold lower_bound_step. eapply wp_bind_mono; [apply (wp_weak _ (kn u false)); [apply pres_deterministic; kt|exact H]|].
    cbv beta. clear s H. intros [y v] s H. apply wp_bind, wp_get.
    assert (R : pres (kn u true) (mbind gap_now (fun g => mbind (store_info w) (fun _ => mret g)))).
    { apply pres_bind; [apply pres_gap|intro]. apply pres_bind; [apply kn_store|intro; apply pres_ret]. }
    destruct (ext_ltb (a_vLB s) (Fin v)) eqn:E.
    - apply wp_bind, wp_bind, wp_put; [auto|intros _]. apply wp_put; [auto|intros _]. apply wp_weak; [exact R|].
      destruct H as (A & B & C & D). repeat split; cbn; auto; discriminate.
    - apply wp_bind, wp_ret. apply wp_weak; [exact R|]. destruct H as (A & B & C & D). repeat split; auto.
      intros _ N. rewrite N in E. discriminate.
  Qed.

  Hypothesis CM : clock_mono w.

  Definition late (s : ast) : Prop := exists t, t <= a_t s /\ (c_limit cf - (w_clock w t - a_start s) <= 0)%Q.
  (** After a call of the upper bounder, vUB is a number unless the time is up. *)
  Lemma upper_known s : kn false false s -> wp (fun _ _ => True) (upper_bound_step w I cf)
    (fun r s' => kn false false s' /\ (kn true false s' \/ snd r = false /\ late s')) s.
  Proof.
    intro H. unfold upper_bound_step. apply wp_bind, wp_get.
    eapply wp_bind_mono; [apply (wp_weak _ (kn false false)); [apply pres_if; [apply pres_lift|apply pres_partition_bound; kt]|exact H]|].
    cbv beta. clear H. intros [[[x z] vo] vb] s1 H. clear s. rename s1 into s. apply wp_bind, wp_available.
    destruct (Qle_bool _ 0) eqn:E.
    - apply wp_bind, wp_get, wp_ret. split; [exact H|]. right. split; [reflexivity|]. exists (a_t s). split; [cbn; lia|].
      apply Qle_bool_iff in E. eapply Qle_trans; [apply Q.le_max_l|exact E].
    - destruct (check_feasibility (w_norm w) I x) as [ok f].
      assert (R : pres (kn true false) (mbind (put w (fun s => set_lb (save_feasible (a_lb s) (get_feasible_scenarios f)) s))
          (fun _ => mbind (store_info w) (fun _ => mret (Some x, ok))))).
      { apply pres_bind; [pt|intro]. apply pres_bind; [apply kn_store|intro; apply pres_ret]. }
      assert (R' : forall s1, kn true false s1 -> wp (fun _ _ => True) (mbind (put w (fun s => set_lb (save_feasible (a_lb s) (get_feasible_scenarios f)) s))
          (fun _ => mbind (store_info w) (fun _ => mret (Some x, ok)))) (fun r s' => kn false false s' /\ (kn true false s' \/ snd r = false /\ late s')) s1).
      { intros s1 K. eapply wp_mono; [apply (wp_weak _ _ _ R K)| |auto]. cbv beta. intros r s2 K2. split; [|now left].
        destruct K2 as (A & B & C & D). repeat split; auto; discriminate. }
      apply wp_bind, wp_put; [auto|intros _]. apply wp_bind, wp_put; [auto|intros _]. apply wp_bind, wp_get. cbn [a_vUB bump set_t set_zUB set_fe].
      destruct H as (A & B & C & D).
      destruct (ext_leb (Fin vb) (ext_add (a_vUB s) (1 # 100000000))) eqn:E1.
      + apply wp_bind, wp_bind. destruct (ext_leb (Fin vo) _).
        * apply wp_put; [auto|intros _]. apply wp_put; [auto|intros _]. apply R'. repeat split; cbn; auto; discriminate.
        * apply wp_ret. apply wp_put; [auto|intros _]. apply R'. repeat split; cbn; auto; discriminate.
      + apply wp_bind, wp_ret. apply R'. repeat split; cbn; auto. intros _ N. rewrite N in E1. discriminate.
  Qed.

  Lemma bounds_known s : kn false false s -> wp (fun _ _ => True) (bound_phase w I cf) (fun r s' => r <> inl Continue /\ forall x, r = inr x -> kn true true s') s.
  Proof.
    intro H. rewrite bound_phase_eq.
    eapply wp_bind_mono; [apply (wp_weak _ (kn false false)); [apply pres_gap|exact H]|]. cbv beta. clear s H. intros _ s H.
    eapply wp_bind_mono; [apply (wp_weak _ (kn false false)); [apply pres_big_M; kt|exact H]|]. cbv beta. clear s H. intros _ s H.
    eapply wp_bind_mono; [apply upper_known, H|]. cbv beta. clear s H. intros [x ok] s [_ H]. unfold after_upper.
    destruct ok; [apply wp_ret; split; [discriminate|intros ? ?; discriminate]|]. apply wp_bind, wp_available.
    destruct (Qle_bool _ 0) eqn:E; [apply wp_ret; split; [discriminate|intros ? ?; discriminate]|]. destruct H as [H|[_ (t & L1 & L2)]].
    - eapply wp_bind_mono; [apply lower_known, H|]. cbv beta. clear s H E. intros g s H.
      destruct (gap_leb g (c_gap cf)); [apply wp_ret; split; [discriminate|intros ? ?; discriminate]|]. apply wp_bind, wp_available.
      destruct (Qle_bool _ 0); apply wp_ret; [split; [discriminate|intros ? ?; discriminate]|]. split; [discriminate|]. intros _ _. exact H.
    - exfalso. specialize (CM _ _ L1). assert (N : Qle_bool (Qmax (c_limit cf - (w_clock w (a_t s) - a_start s)) 0) 0 = true).
      { apply Qle_bool_iff. apply Q.max_lub; lra. }
      congruence.
  Qed.

  Lemma head_known s : head_reach w I cf s -> kn false false s /\ (a_iter s = 1 \/ kn true true s).
  Proof.
    intro H. induction H as [b s0 s E0 E|s s' H IH E].
    - assert (K0 : kn false false s0).
      { assert (K : kn false false (ast0 I)) by (repeat split; cbn; discriminate).
        apply (kn_construct false false) in K. apply (wp_run _ _ _ _ _ _ K) in E0. exact E0. }
      split.
      + apply (kn_prologue false false b) in K0. apply (wp_run _ _ _ _ _ _ K0) in E. exact E.
      + left. assert (W : wp (fun _ _ => True) (prologue w I cf b) (fun _ s1 => a_iter s1 = 1) s0).
        { unfold prologue. apply wp_bind, wp_get. eapply wp_bind_mono with (P := fun _ _ => True).
          { apply (wp_weak _ (fun _ => True)); [unfold partition_cost; pt|]; auto. all: intros; exact Logic.I. }
          intros [costs sols] s1 _. apply wp_bind, wp_put; [auto|intros _]. apply wp_bind, wp_put; [auto|intros _].
          apply wp_bind, wp_lift; [|auto]. intros _ _. eapply wp_bind_mono with (P := fun _ _ => True).
          { apply (wp_weak _ (fun _ => True)); [unfold improve_vlb; pt|]; auto; intros; exact Logic.I. }
          intros _ s2 _. apply wp_bind, wp_put; [auto|intros _]. apply wp_bind, wp_available, wp_ret. reflexivity. }
        apply (wp_run _ _ _ _ _ _ W) in E. exact E.
    - rewrite iteration_eq in E. unfold mbind in E. destruct (bound_phase w I cf s) as [[r|e] s1] eqn:E1; [|discriminate].
      destruct IH as [IH _]. assert (W := bounds_known s IH). apply (wp_run _ _ _ _ _ _ W) in E1. destruct r as [v|x].
      + cbn in E. injection E as -> <-. destruct E1 as [E1 _]. now contradiction E1.
      + apply proj2 in E1. specialize (E1 x eq_refl). assert (W2 : pres (kn true true) (after_bounds w I cf (inr x))).
        { unfold after_bounds. apply pres_bind; [apply kn_split|]. intros [R nc]. apply pres_bind; [apply kn_merge|intro; apply kn_next]. }
        apply W2 in E1. apply (wp_run _ _ _ _ _ _ E1) in E. split; [|now right]. destruct E as (A & B & C & D). repeat split; auto; discriminate.
  Qed.
End Known.

Lemma first_unknown w I cf s : clock_mono w -> head_reach w I cf s ->
  a_iter s = 1 \/ exists u l, a_vUB s = Fin u /\ a_vLB s = Fin l.
Proof.
  intros CM H. destruct (head_known w I cf CM s H) as [_ [E|(A & B & C & D)]]; [now left|right].
  specialize (C eq_refl). specialize (D eq_refl). destruct (a_vUB s) as [|u|]; try easy. destruct (a_vLB s) as [|l|]; try easy. eauto.
Qed.
Lemma never_absurd w I cf s : clock_mono w -> head_reach w I cf s -> a_vUB s <> NInf /\ a_vLB s <> PInf.
Proof. intros CM H. destruct (head_known w I cf CM s H) as [(A & B & _) _]. auto. Qed.
