(** No tolerated scenario, variables of any kind: the run ends in its first iteration (C79). *)
From Verif Require Import Base BaseFacts Spec Instance InstanceFacts OptModels OptFacts PartitionFacts Initial InitialFacts Bounds BoundsFacts
  Refine RefineFacts RefineSum CostRefine CostRefineFacts Merge MergeFacts Violations ViolTable BigM BigMFacts2 SongFacts Adaptive AdaptiveSpec AdaptiveWp AdaptiveStruct AdaptiveStart
  AdaptiveBounds NearSpec ContFacts AdaptiveEnd AdaptiveRobust NearValue.

Section RobustCont.
  Variable w : world.
  Variable I : inst.
  Variable cf : cfg.
  Variables tau delta : Q.
  Hypothesis HO : oracles_ok w I.
  Hypothesis HSo : sort_spec (w_sort w).
  Hypothesis HW : wf_inst I.
  Hypothesis HP : packing I.
  Hypothesis HEps : eps_ok I.
  Hypothesis HE1 : (i_eps I < 1)%Q.
  Hypothesis HS : solver_ok w I tau delta.
  Hypothesis HTau : eps_within I tau.
  Hypothesis HCT : i_cont I = true -> tau = 0%Q.
  Hypothesis HC : calm w cf.
  Hypothesis HOp : options_ok w I cf.
  Hypothesis HT : near I.
  Hypothesis HX : exact_if_cont w I.
  Hypothesis HN : 0 < i_n I.
  Hypothesis H0 : tolerated I = 0.

  (** With one subset the model of the upper bound is not solved, hence the closeness of two solutions is not asserted. *)
  Definition no_assert (e : exn) (s : ast) : Prop := e <> AssertionError.
  Lemma gap_no_assert (Q : gapv -> ast -> Prop) s : (forall g, Q g s) -> wp no_assert gap_now Q s.
  Proof.
    clear. intro H. unfold gap_now. apply wp_bind, wp_get, wp_lift; [auto|]. intros e E. unfold no_assert. intros ->. unfold compute_gap in E.
    destruct (a_vLB s); destruct (a_vUB s); try discriminate. destruct (Qeq_bool _ _); [|discriminate]. destruct (_ || _); discriminate.
  Qed.
  Lemma put_no_assert f (Q : unit -> ast -> Prop) s : Q tt (bump (f s)) -> wp no_assert (put w f) Q s.
  Proof. clear. intro H. apply wp_put; [intros _; discriminate|auto]. Qed.
  Lemma upper_no_assert s : a_nb s = min_size I -> wp no_assert (upper_bound_step w I cf) (fun _ _ => True) s.
  Proof.
    clear. intro E. unfold upper_bound_step. apply wp_bind, wp_get. rewrite E, Nat.eqb_refl. apply wp_bind, wp_lift.
    2:{ intros e X. unfold no_assert. intros ->. unfold first_iteration_bound, argmax, geti in X. destruct (a_costs s) as [|q l]; [discriminate|].
        cbn [rbind] in X. destruct (nth_error (a_sols s) _); [|discriminate]. cbn [rbind] in X. destruct (nth_error _ _); discriminate. }
    intros [[[x z] vo] vb] _. apply wp_bind, wp_available. destruct (Qle_bool _ 0); [apply wp_bind, wp_get, wp_ret; exact Logic.I|].
    destruct (check_feasibility _ I x) as [ok f]. apply wp_bind, put_no_assert. apply wp_bind, put_no_assert. apply wp_bind, wp_get.
    assert (K : forall s1, wp no_assert (put w (fun s => set_lb (save_feasible (a_lb s) (get_feasible_scenarios f)) s) ;;; store_info w ;;; mret (Some x, ok))%mon (fun _ _ => True) s1).
    { intro s1. apply wp_bind, put_no_assert. apply wp_bind. unfold store_info. apply wp_bind, gap_no_assert. intro g. apply wp_bind, wp_clock, put_no_assert.
      apply wp_ret. exact Logic.I. }
    apply wp_bind. destruct (ext_leb (Fin vb) _); [|apply wp_ret, K].
    apply wp_bind. destruct (ext_leb (Fin vo) _); [apply put_no_assert|apply wp_ret]; apply put_no_assert, K.
  Qed.
  Definition only_zero (e : exn) (s : ast) : Prop := zde w I cf e s /\ no_assert e s.
  Lemma wp_both {A} (m : M A) (Q : A -> ast -> Prop) s : wp (zde w I cf) m Q s -> wp no_assert m (fun _ _ => True) s -> wp only_zero m Q s.
  Proof. clear. unfold wp, only_zero. destruct (m s) as [[a|e] s']; auto. Qed.
  Lemma bound_first_any s : head_ok w I tau delta s -> length (a_part s) = tolerated I + 1 ->
    wp only_zero (bound_phase w I cf) (fun r s' => r = inl Feasible /\ a_iter s' = a_iter s) s.
  Proof.
    intros [OK FE ZF ST JI XI] LP. rewrite bound_phase_eq.
    assert (NB : a_nb s = min_size I). { rewrite (min_size_tolerated I), <- LP; [apply (sh_nb _ _ _ (proj2 OK))|apply HEps]. }
    apply wp_bind, wp_both; [|apply gap_no_assert; auto]. apply gap_safe. intros _. apply wp_bind.
    eapply wp_mono; [eapply wp_conj; [exact (big_M_good w I cf tau delta HO HSo HW HP HEps HS s OK)|exact (big_M_safe w I cf tau delta HO HSo HW HP HEps HS HC HOp HX HN s OK)]| |intros e s' [_ []]].
    cbv beta. intros _ s1 ((OK1 & MS1) & (t & v & E1) & SO1 & MP1).
    assert (ST1 : a_start s1 = w_clock w 0) by (rewrite E1; exact ST).
    assert (ZF1 : zfits I s1) by (rewrite E1; exact ZF).
    assert (XI1 : xinv I tau delta s1) by (rewrite E1; exact XI).
    assert (JI1 : jinv I tau delta (a_part s1) s1) by (rewrite E1; exact JI).
    assert (NB1 : a_nb s1 = min_size I) by (rewrite E1; exact NB).
    assert (IT : a_iter s1 = a_iter s) by (rewrite E1; reflexivity). rewrite <- IT. apply wp_bind.
    eapply wp_mono; [apply wp_both; [exact (upper_safe w I cf tau delta HW HP HEps HS HTau HCT HC HT HX HN s1 OK1 MS1 SO1 MP1 ZF1 ST1 JI1 XI1)|exact (upper_no_assert s1 NB1)]| |auto].
    cbv beta. intros [x ok] s2 (_ & A2 & _ & _ & y & EY & HU & F2 & _). cbn [fst snd] in EY, F2. unfold after_upper. destruct ok; [apply wp_ret; auto|].
    exfalso. specialize (F2 eq_refl). apply (no_refusal I HEps H0 y (a_part s1) (w_norm w)); [apply (sh_valid _ _ _ (proj2 OK1))|apply F2|exact HU].
  Qed.
  Lemma loop_first_any fuel s : 0 < fuel -> head_ok w I tau delta s -> length (a_part s) = tolerated I + 1 ->
    wp only_zero (main_loop w I cf fuel) (fun v s' => v = Feasible /\ a_iter s' = a_iter s) s.
  Proof.
    intros HF H LP. destruct fuel as [|n]; [lia|]. cbn [main_loop]. apply wp_bind. rewrite iteration_eq. apply wp_bind.
    eapply wp_mono; [exact (bound_first_any s H LP)| |auto]. cbv beta. intros r s' [-> E]. apply wp_ret. apply wp_ret. auto.
  Qed.
  Lemma robust_run_any fuel r s : 0 < fuel -> run w I cf fuel = (r, s) -> (r = Ok Feasible /\ a_iter s = 1) \/ zero_bound r s.
  Proof.
    intros HF ER.
    assert (W : wp only_zero (let! b := construct w I cf in let! v := prologue w I cf b in
      (let! v := match v with Continue => main_loop w I cf fuel | _ => mret v end in epilogue w v))%mon (fun v s' => v = Feasible /\ a_iter s' = 1) (ast0 I)).
    { apply (start_safe w I cf tau delta HO HW HP HEps HE1 HS HC HOp HX HN). intros s' H IT LP. eapply wp_bind_mono; [apply loop_first_any; [exact HF|exact H|exact LP]|]. cbv beta. intros v s2 [-> HI].
      apply (epilogue_safe w cf HC). intros s3 ->. split; [reflexivity|congruence]. }
    apply (wp_run _ _ _ _ _ _ W) in ER. destruct r as [v|e]; cbv beta iota in ER.
    - destruct ER as [-> H]; auto.
    - destruct ER as [[(-> & _ & ER)|ER] NA]; [right; split; [reflexivity|exact ER]|]. exfalso. destruct ER as (_ & limit & m & t & x & z & v & b & _ & _ & -> & _). now apply NA.
  Qed.
  Lemma robust_positive_any : (exists y, det_feasible I (seq 0 (i_k I)) 0 y /\ (0 < obj I y)%Q) ->
    forall fuel r s, 0 < fuel -> run w I cf fuel = (r, s) -> r = Ok Feasible /\ a_iter s = 1.
  Proof.
    intros HPos fuel r s HF E. destruct (robust_run_any fuel r s HF E) as [H|[H _]]; [exact H|].
    destruct (safe_pos_any w I cf tau delta HO HSo HW HP HEps HE1 HS HTau HCT HC HOp HT HX HN HPos fuel r s E) as [X|[X|[X|(e & X & C)]]]; try congruence.
    destruct C as (_ & limit & m & t & x & z & v & b & _ & _ & -> & _). congruence.
  Qed.
  Lemma robust_value_any fuel s : run w I cf fuel = (Ok Feasible, s) ->
    exists x v, a_vUB s = Fin v /\ a_vLB s = Fin v /\ det_feasible I (seq 0 (i_k I)) 0 x /\ (v < obj I x + delta + (1 # 1000))%Q /\
      forall y, det_feasible I (seq 0 (i_k I)) 0 y -> (obj I y <= v)%Q.
  Proof.
    clear HE1 HTau HCT HC HOp HX HN. intro E. destruct (near_value w I cf tau delta HO HSo HW HP HEps HS HT fuel s E) as (v & A & B & D & x & F & L).
    exists x, v. split; [exact A|]. split; [exact B|]. split; [now apply (robust_point I HEps H0)|]. split; [exact L|]. intros y Hy. apply D. now apply (robust_point I HEps H0).
  Qed.
End RobustCont.
