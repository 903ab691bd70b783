(** The first iteration of the adaptive partitioner after a cost-based initial partition. *)
From Verif Require Import Base BaseFacts Spec Instance OptModels OptFacts Initial InitialFacts Bounds BoundsFacts
  Refine CostRefine Merge Violations BigM Adaptive AdaptiveSpec AdaptiveWp AdaptiveStruct.

Section Start.
  Variable w : world.
  Variable I : inst.
  Variable cf : cfg.
  Hypothesis HO : oracles_ok w I.
  Hypothesis HW : wf_inst I.
  Hypothesis HE : (0 <= i_eps I)%Q.
  Hypothesis HC : c_init cf = InitCost.

  Definition start_data (s : ast) (v : Q) : Prop :=
    exists costs i, length costs = i_k I /\ (forall t, t < i_k I -> exists x, answered w I [t] (nth t costs 0%Q) x) /\
      create_first_partition (w_argsort w) [] costs (i_k I) (min_size I) InitCost = Ok (a_part s) /\
      ahmed_bound (w_argsort w) costs (uniform (i_k I)) (i_eps I) = Ok (Some (i, v)).
  Definition started (s : ast) : Prop :=
    exists v, start_data s v /\ a_vUB s = Fin v /\ a_xUB s = None /\ a_nb s = min_size I.

  Lemma Forall2_nth_singletons k n0 r :
    Forall2 (fun S vx => answered w I S (fst vx) (snd vx)) (map (fun s => [s]) (seq n0 k)) r ->
    forall t, t < k -> exists x, answered w I [n0 + t] (nth t (map fst r) 0%Q) x.
  Proof.
    revert n0 r. induction k as [|k IH]; intros n0 r H t Ht; [lia|]. cbn [seq map] in H. inversion H as [|S vx l' r' HA HF]; subst.
    destruct t as [|t]; cbn [map nth].
    - rewrite Nat.add_0_r. eauto.
    - replace (n0 + Datatypes.S t) with (Datatypes.S n0 + t) by lia. apply IH; [exact HF|lia].
  Qed.

  Lemma start_data_eq s s' v : a_part s' = a_part s -> start_data s v -> start_data s' v.
  Proof. unfold start_data. now intros ->. Qed.

  Lemma started_intro s p costs i v : a_xUB s = None /\ a_nb s = min_size I /\ a_part s = p ->
    length costs = i_k I -> (forall t, t < i_k I -> exists x, answered w I [t] (nth t costs 0%Q) x) ->
    create_first_partition (w_argsort w) [] costs (i_k I) (min_size I) InitCost = Ok p ->
    ahmed_bound (w_argsort w) costs (uniform (i_k I)) (i_eps I) = Ok (Some (i, v)) ->
    started (bump (set_vUB (Fin v) true s)).
  Proof.
    intros (A1 & A2 & A3) L HA HCr HB. exists v. split; [|split; [reflexivity|split; assumption]].
    exists costs, i. split; [exact L|]. split; [exact HA|]. split; [|exact HB]. cbn [a_part bump set_t set_vUB]. now rewrite A3.
  Qed.
  Lemma setup_start s : a_xUB s = None ->
    wp (fun _ _ => True) (setup_initial_partition w I cf) (fun b s' => b = true -> started s') s.
  Proof.
    intro X0. unfold setup_initial_partition. rewrite HC. apply wp_bind, wp_put; [auto|]. intros _.
    set (s1 := bump _). assert (P1 : a_xUB s1 = None /\ a_nb s1 = min_size I) by (split; [exact X0|reflexivity]).
    clearbody s1. clear s X0. apply wp_bind, wp_lift; [|auto]. intros [] _.
    apply wp_bind. unfold all_scenario_costs. apply wp_bind. apply (wp_mmap_map _ (subset_cost w I) (fun s => [s])).
    eapply wp_mono with (E := fun e _ => external w I e)
      (Q := fun r s => (a_xUB s = None /\ a_nb s = min_size I) /\
              Forall2 (fun S vx => answered w I S (fst vx) (snd vx)) (map (fun s => [s]) (seq 0 (i_k I))) r);
      [apply ext_mmap_cost| |auto].
    { intros r t HF. split; [exact P1|exact HF]. }
    intros r s2 [P2 HF]. clear s1 P1. apply wp_ret. apply wp_bind, wp_get. apply wp_bind, wp_lift; [|auto]. intros p EP.
    apply wp_bind, wp_put; [auto|]. intros _. apply wp_bind, wp_put; [auto|]. intros _.
    apply wp_bind, wp_lift; [|auto]. intros V _. apply wp_bind, wp_put; [auto|]. intros _.
    set (s3 := bump _). assert (P3 : a_xUB s3 = None /\ a_nb s3 = min_size I /\ a_part s3 = p).
    { destruct P2 as [A1 A2]. split; [exact A1|]. split; [exact A2|reflexivity]. }
    clearbody s3. clear P2. apply wp_bind, wp_lift; [|auto]. intros [[i v]|] EA; [|apply wp_ret; discriminate].
    apply wp_bind, wp_put; [auto|]. intros _. apply wp_ret. intros _.
    assert (LC : length (map fst r) = i_k I). { apply Forall2_len in HF. rewrite map_length, seq_length in HF. now rewrite map_length. }
    exact (started_intro s3 p (map fst r) i v P3 LC (Forall2_nth_singletons _ 0 r HF) EP EA).
  Qed.
  Lemma construct_start : wp (fun _ _ => True) (construct w I cf) (fun b s' => b = true -> started s') (ast0 I).
  Proof.
    unfold construct. apply wp_bind, wp_clock, wp_bind, wp_put; [auto|]. intros _.
    apply wp_bind, wp_lift; [|auto]. intros _ _. apply wp_bind.
    eapply wp_mono; [apply setup_start; reflexivity| |auto].
    intros b s5 H5. apply wp_bind, wp_get, wp_bind, wp_put; [auto|]. intros _. apply wp_ret. exact H5.
  Qed.
  Lemma prologue_start b s : (b = true -> started s) ->
    wp (fun _ _ => True) (prologue w I cf b) (fun _ s' => started s') s.
  Proof.
    intro H. unfold prologue. apply wp_bind, wp_get, wp_bind. unfold partition_cost. apply wp_bind.
    eapply wp_mono with (E := fun e _ => external w I e) (Q := fun _ s' => b = true -> started s'); [apply ext_mmap_cost| |auto].
    { intros r t _. exact H. }
    intros r s1 H1. clear s H. apply wp_ret. apply wp_bind, wp_put; [auto|]. intros _. apply wp_bind, wp_put; [auto|]. intros _.
    apply wp_bind, wp_lift; [|auto]. intros [] EB. destruct b; [|discriminate]. specialize (H1 eq_refl).
    set (s2 := bump _). assert (P2 : started s2) by exact H1. clearbody s2. clear s1 H1 EB.
    apply wp_bind. eapply wp_mono with (E := fun e _ => external w I e) (Q := fun _ => started); [apply ext_improve| |auto].
    { intros s' HF. apply HF; [intros ? ? X; exact X|intros ? ? X; exact X|intros ? ? ? X; exact X|exact P2]. }
    intros _ s3 P3. apply wp_bind, wp_put; [auto|]. intros _. apply wp_bind, wp_available. apply wp_ret. exact P3.
  Qed.

  (** The upper bound of the first iteration keeps its point. *)
  Lemma upper_first s v : a_vUB s = Fin v -> a_xUB s = None -> a_nb s = min_size I ->
    (forall x z vo vb, first_iteration_bound (a_costs s) (a_sols s) = Ok (x, z, vo, vb) -> (vo <= v /\ vb <= v)%Q) ->
    wp (fun _ _ => True) (upper_bound_step w I cf) (fun r s' => a_xUB s' = fst r) s.
  Proof.
    intros EV EX EN HB. unfold upper_bound_step. apply wp_bind, wp_get. rewrite EN, Nat.eqb_refl.
    apply wp_bind, wp_lift; [|auto]. intros [[[x z] vo] vb] EF. destruct (HB _ _ _ _ EF) as [B1 B2].
    apply wp_bind, wp_available. set (s1 := bump s).
    match goal with |- wp _ (if ?b then _ else _) _ _ => destruct b end.
    { apply wp_bind, wp_get, wp_ret. reflexivity. }
    destruct (check_feasibility (w_norm w) I x) as [ok f]. apply wp_bind, wp_put; [auto|]. intros _.
    apply wp_bind, wp_put; [auto|]. intros _. apply wp_bind, wp_get.
    set (s2 := bump _). assert (E2 : a_vUB s2 = Fin v) by exact EV. rewrite E2. clearbody s2. cbn [ext_add ext_leb].
    rewrite (proj2 (Qle_bool_iff vb (v + (1 # 100000000))%Q)) by lra.
    rewrite (proj2 (Qle_bool_iff vo (v + (1 # 100000000))%Q)) by lra.
    apply wp_bind, wp_bind, wp_put; [auto|]. intros _. apply wp_put; [auto|]. intros _.
    apply wp_bind, wp_put; [auto|]. intros _. set (s3 := bump _). assert (E3 : a_xUB s3 = Some x) by reflexivity. clearbody s3.
    apply wp_bind. unfold store_info. apply wp_bind. eapply wp_mono with (E := fun _ _ => True) (Q := fun _ s' => a_xUB s' = Some x); [| |auto].
    { unfold gap_now. apply wp_bind, wp_get, wp_lift; auto. }
    intros g s4 E4. apply wp_bind, wp_clock, wp_put; [auto|]. intros _. apply wp_ret. exact E4.
  Qed.

  Lemma first_iteration_keeps b s0 s1 :
    (forall t S, outcome_exact (deter_model I S) (w_solve w t (deter_model I S))) ->
    construct w I cf (ast0 I) = (Ok b, s0) -> prologue w I cf b s0 = (Ok Continue, s1) ->
    exists v, a_vUB s1 = Fin v /\ 0 < length (a_costs s1) /\ Forall (fun c => c <= v)%Q (a_costs s1) /\
      forall x ok s2, upper_bound_step w I cf s1 = (Ok (x, ok), s2) -> a_xUB s2 = x.
  Proof.
    intros HX EC EP.
    assert (C := wp_run _ _ _ _ _ _ construct_start EC). cbn in C.
    assert (C' := wp_run _ _ _ _ _ _ (construct_inv w I cf HO HE) EC). cbn in C'.
    assert (G := wp_run _ _ _ _ _ _ (prologue_start b s0 C) EP). cbn in G.
    assert (H := head_inv w I cf HO HW HE s1 (HR_start w I cf b s0 s1 EC EP)). destruct H as [SH _].
    destruct G as (v & (costs & i & L & HA & HCr & HB) & EV & EX & EN).
    pose proof (sh_costs _ _ _ SH) as (L1 & L2 & AL).
    assert (EM : min_size I = tolerated I + 1) by now apply min_size_tolerated.
    destruct (cost_start (w_argsort w) I costs (a_part s1) i v (a_costs s1) (a_sols s1)) as [F1 F2]; try assumption.
    - apply HO.
    - apply HW.
    - rewrite <- EM. unfold create_first_partition, rassert in HCr. destruct (min_size I <=? i_k I) eqn:E; [now apply Nat.leb_le|discriminate].
    - intros t y Ht HF. destruct (HA t Ht) as (x & t0 & z & b0 & EQ).
      pose proof (HX t0 [t]) as X. rewrite EQ in X. apply deter_exact_opt in X as [_ U]. now apply U.
    - now rewrite <- EM.
    - intros c Hc. destruct (AL c Hc) as (t0 & z & b0 & EQ).
      pose proof (HX t0 (nth c (a_part s1) [])) as X. rewrite EQ in X. now apply deter_exact_opt in X.
    - exists v. split; [exact EV|]. split; [|split; [exact F1|]].
      + rewrite L1. pose proof (sh_min _ _ _ SH) as SM. rewrite (sh_nb _ _ _ SH) in SM. lia.
      + intros x ok s2 EU. assert (R := wp_run _ _ _ _ _ _ (upper_first s1 v EV EX EN F2) EU). cbn in R. exact R.
  Qed.
End Start.
