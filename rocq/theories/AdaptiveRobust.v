(** No tolerated scenario: the run ends in its first iteration (C79). *)
From Verif Require Import Base BaseFacts Spec Instance InstanceFacts OptModels OptFacts PartitionFacts Initial InitialFacts Bounds BoundsFacts
  Refine RefineFacts RefineSum CostRefine CostRefineFacts Merge MergeFacts Violations ViolTable BigM BigMFacts2 SongFacts Adaptive AdaptiveSpec AdaptiveWp AdaptiveStruct AdaptiveStart
  AdaptiveBounds NearSpec ContFacts AdaptiveEnd.

Section Robust.
  Variable w : world.
  Variable I : inst.
  Variable cf : cfg.
  Variables tau delta : Q.
  Hypothesis HO : oracles_ok w I.
  Hypothesis HSo : sort_spec (w_sort w).
  Hypothesis HW : wf_inst I.
  Hypothesis HP : packing I.
  Hypothesis HEps : eps_ok I.
  Hypothesis HE1 : (i_eps I < 1)%Q.
  Hypothesis HS : solver_ok w I tau delta.
  Hypothesis HTau : eps_within I tau.
  Hypothesis HC : calm w cf.
  Hypothesis HOp : options_ok w I cf.
  Hypothesis HT : tight I.
  Hypothesis HB : i_cont I = false.
  Hypothesis HN : 0 < i_n I.
  Hypothesis H0 : tolerated I = 0.

  Let HT' := tight_near I HT.
  Let HX := bin_exact w I HB.
  Let HCT := bin_tau I tau HB.

  Lemma no_refusal y p norm : valid_partition (i_k I) p -> fst (check_feasibility norm I y) = false -> nunsat I tol6 y p <= tolerated I -> False.
  Proof.
    clear HN. intros VP F2 HU. apply check_infeasible_count in F2; [|apply HEps]. rewrite H0 in *.
    apply count_pos in F2 as (t & Ht & HV). rewrite <- nb_bad_nunsat in HU. unfold nb_bad in HU.
    destruct VP as [PE _]. apply (Permutation_in _ (Permutation_sym PE)) in Ht. apply in_concat in Ht as (S & HS1 & HS2).
    assert (X : 0 < count (existsb (violated I y)) p); [|lia]. apply count_pos. exists S. split; [exact HS1|]. apply existsb_exists. now exists t.
  Qed.
  Lemma bound_first s : head_ok w I tau delta s -> wp (zde w I cf) (bound_phase w I cf) (fun r s' => r = inl Feasible /\ a_iter s' = a_iter s) s.
  Proof.
    intros [OK FE ZF ST JI XI]. rewrite bound_phase_eq. apply wp_bind, gap_safe. intros _. apply wp_bind.
    eapply wp_mono; [eapply wp_conj; [exact (big_M_good w I cf tau delta HO HSo HW HP HEps HS s OK)|exact (big_M_safe w I cf tau delta HO HSo HW HP HEps HS HC HOp HX HN s OK)]| |intros e s' [_ []]].
    cbv beta. intros _ s1 ((OK1 & MS1) & (t & v & E1) & SO1 & MP1).
    assert (ST1 : a_start s1 = w_clock w 0) by (rewrite E1; exact ST).
    assert (ZF1 : zfits I s1) by (rewrite E1; exact ZF).
    assert (XI1 : xinv I tau delta s1) by (rewrite E1; exact XI).
    assert (JI1 : jinv I tau delta (a_part s1) s1) by (rewrite E1; exact JI).
    assert (IT : a_iter s1 = a_iter s) by (rewrite E1; reflexivity). rewrite <- IT. apply wp_bind.
    eapply wp_mono; [exact (upper_safe w I cf tau delta HW HP HEps HS HTau HCT HC HT' HX HN s1 OK1 MS1 SO1 MP1 ZF1 ST1 JI1 XI1)| |auto].
    cbv beta. intros [x ok] s2 (_ & A2 & _ & _ & y & EY & HU & F2 & _). cbn [fst snd] in EY, F2. unfold after_upper. destruct ok; [apply wp_ret; auto|].
    exfalso. specialize (F2 eq_refl). apply (no_refusal y (a_part s1) (w_norm w)); [apply (sh_valid _ _ _ (proj2 OK1))|apply F2|exact HU].
  Qed.
  Lemma loop_first fuel s : 0 < fuel -> head_ok w I tau delta s -> wp (zde w I cf) (main_loop w I cf fuel) (fun v s' => v = Feasible /\ a_iter s' = a_iter s) s.
  Proof.
    intros HF H. destruct fuel as [|n]; [lia|]. cbn [main_loop]. apply wp_bind. rewrite iteration_eq. apply wp_bind.
    eapply wp_mono; [exact (bound_first s H)| |auto]. cbv beta. intros r s' [-> E]. apply wp_ret. apply wp_ret. auto.
  Qed.
  Lemma robust_run fuel r s : 0 < fuel -> run w I cf fuel = (r, s) -> (r = Ok Feasible /\ a_iter s = 1) \/ zero_bound r s.
  Proof.
    intros HF ER.
    assert (W : wp (zde w I cf) (let! b := construct w I cf in let! v := prologue w I cf b in
      (let! v := match v with Continue => main_loop w I cf fuel | _ => mret v end in epilogue w v))%mon (fun v s' => v = Feasible /\ a_iter s' = 1) (ast0 I)).
    { apply (start_safe w I cf tau delta HO HW HP HEps HE1 HS HC HOp HX HN). intros s' H IT _. eapply wp_bind_mono; [apply loop_first; [exact HF|exact H]|]. cbv beta. intros v s2 [-> HI].
      apply (epilogue_safe w cf HC). intros s3 ->. split; [reflexivity|congruence]. }
    apply (wp_run _ _ _ _ _ _ W) in ER. destruct r as [v|e]; cbv beta iota in ER.
    - destruct ER as [-> H]; auto.
    - destruct ER as [(-> & _ & ER)|ER]; [right; split; [reflexivity|exact ER]|]. exfalso. now apply bin_close in ER.
  Qed.
  Lemma robust_positive : (exists y, det_feasible I (seq 0 (i_k I)) 0 y /\ (0 < obj I y)%Q) -> forall fuel r s, 0 < fuel -> run w I cf fuel = (r, s) -> r = Ok Feasible /\ a_iter s = 1.
  Proof.
    intros HPos fuel r s HF E. destruct (robust_run fuel r s HF E) as [H|[H _]]; [exact H|].
    destruct (safe_pos w I cf tau delta HO HSo HW HP HEps HE1 HS HTau HC HOp HT HB HN HPos fuel r s E) as [X|[X|X]]; congruence.
  Qed.
  Lemma robust_point t x : cc_feasible I t x <-> det_feasible I (seq 0 (i_k I)) t x.
  Proof.
    clear HN. unfold cc_feasible, det_feasible. assert (E : (Qn (nviol I t x) <= i_eps I * Qn (i_k I))%Q <-> nviol I t x <= tolerated I) by apply tolerated_le, HEps.
    rewrite E, H0. split; intros [D F]; (split; [exact D|]).
    - intros s Hs. assert (Z : nviol I t x = 0) by lia. apply count_zero with (a := s) in Z; [|exact Hs]. apply negb_false_iff in Z. now apply satb_iff in Z.
    - apply Nat.le_0_r, count_zero. intros s Hs. apply negb_false_iff, satb_iff, F, Hs.
  Qed.
  Lemma robust_value fuel s : run w I cf fuel = (Ok Feasible, s) ->
    exists x v, a_vUB s = Fin v /\ a_vLB s = Fin v /\ det_feasible I (seq 0 (i_k I)) 0 x /\ (v <= obj I x + delta)%Q /\ forall y, det_feasible I (seq 0 (i_k I)) 0 y -> (obj I y <= v)%Q.
  Proof.
    intro E. destruct (feasible_value w I cf tau delta HO HSo HW HP HEps HS fuel s HT E) as (x & v & A & B & C & D & F).
    exists x, v. split; [exact A|]. split; [exact B|]. split; [now apply robust_point|]. split; [exact F|]. intros y Hy. apply D. now apply robust_point.
  Qed.
End Robust.
