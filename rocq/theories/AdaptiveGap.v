(** Bounds of a run in which the subset costs are computed with a MIP gap (C73). *)
From Coq Require Import Qabs.
From Verif Require Import Base BaseFacts Spec Instance InstanceFacts OptModels OptFacts PartitionFacts Initial InitialFacts Bounds BoundsFacts
  Refine CostRefine Merge MergeFacts Violations ViolTable BigM BigMFacts2 SongFacts Adaptive AdaptiveSpec AdaptiveWp AdaptiveStruct AdaptiveStart AdaptiveBounds GapSpec.

Section Gap.
  Variable w : world.
  Variable I : inst.
  Variable cf : cfg.
  Variable tau delta eta : Q.
  Hypothesis HO : oracles_ok w I.
  Hypothesis HSo : sort_spec (w_sort w).
  Hypothesis HW : wf_inst I.
  Hypothesis HP : packing I.
  Hypothesis HEps : eps_ok I.
  Hypothesis HS : solver_gap w I tau delta eta.
  Hypothesis HFree : free_of_bound cf.

  Local Notation answered := (answered w I).
  Local Notation shaped := (shaped w I).

  (** Invariant about the bounds and the lower bound model. *)
  Record bndv (u l : ext) (lb : lbst) : Prop := mkBnd {
    bv_ub : upper_gap I eta u l;
    bv_lb : lower_ok I 0 l;
    bv_l0 : l = NInf \/ exists v, l = Fin v /\ (0 <= v)%Q;
    bv_u0 : ext_leb (Fin 0) u = true;
    bv_cut : exists cuts, lb_good I cuts lb /\ Forall (fun v => ext_leb v l = true) cuts;
    bv_cnt : length (lb_counter lb) = i_k I
  }.
  Definition bnd (s : ast) : Prop := bndv (a_vUB s) (a_vLB s) (a_lb s).
  (** The stored solution attains the lower bound. *)
  Definition inc (s : ast) : Prop :=
    a_vLB s = NInf \/ exists v x, a_vLB s = Fin v /\ a_xLB s = Some x /\ cc_feasible I tol6 x /\ (v <= obj I x)%Q.
  Definition good (s : ast) : Prop := bnd s /\ inc s.

  Lemma eps_nonneg : (0 <= i_eps I)%Q.
  Proof. apply HEps. Qed.
  Lemma cc_tau x : cc_feasible I tau x -> cc_feasible I tol6 x.
  Proof.
    intros [D F]. split; [exact D|]. eapply Qle_trans; [|exact F]. apply Qn_le. apply nviol_mono_tau. apply (sg_tau _ _ _ _ _ HS).
  Qed.
  Lemma answered_facts S v x : answered S v x -> in_dom I x /\ det_feasible I S tau x /\ (v == obj I x)%Q /\ (0 <= v)%Q.
  Proof.
    intros (t & z & b & E). assert (H := sg_ok _ _ _ _ _ HS t (deter_model I S)). rewrite E in H.
    apply deter_bound in H as (H1 & H2 & _). assert (D := proj1 H1). assert (N := obj_nonneg I x HP D).
    split; [exact D|]. split; [exact H1|]. split; [exact H2|]. lra.
  Qed.

  Lemma lam1 : (1 <= 1 + eta)%Q. Proof. destruct (sg_default _ _ _ _ _ HS) as [G _]. lra. Qed.
  Lemma div_le a b : (0 <= a)%Q -> (a <= b)%Q -> (a / (1 + eta) <= b)%Q.
  Proof. assert (L := lam1). intros A B. apply Qle_shift_div_r; [lra|]. assert (0 <= eta * b)%Q by (apply Qmult_le_0_compat; lra). lra. Qed.
  Lemma answered_bound S v x : answered S v x -> forall y, det_feasible I S 0 y -> (obj I y / (1 + eta) <= v)%Q.
  Proof.
    intros A y Hy. destruct (answered_facts _ _ _ A) as (_ & _ & _ & V0). destruct A as (t & z & b & E).
    assert (L := lam1). assert (H := sg_ok _ _ _ _ _ HS t (deter_model I S)). destruct (sg_default _ _ _ _ _ HS) as [_ G].
    specialize (G t (deter_model I S) x z v b eq_refl E). rewrite E in H. apply deter_bound in H as (_ & _ & _ & H). specialize (H y Hy).
    rewrite (Qabs_pos v V0) in G. apply Qle_shift_div_r; [lra|]. lra.
  Qed.

  Lemma bndv_vLB u l lb v : bndv u l lb -> ext_leb l (Fin v) = true -> (0 <= v)%Q ->
    (exists x, cc_feasible I tol6 x /\ (v <= obj I x)%Q) -> bndv u (Fin v) lb.
  Proof.
    intros [B1 B2 B3 B4 (cuts & C1 & C2) B6] HL H0 (x & X1 & X2). constructor; auto.
    - intros y Hy. destruct (B1 y Hy) as [A|A]; [now left|right]. eapply ext_leb_trans; eassumption.
    - right. exists v, x. split; [reflexivity|]. split; [exact X1|]. lra.
    - right. eauto.
    - exists cuts. split; [exact C1|]. eapply Forall_impl; [|exact C2]. cbv beta. intros a Ha. eapply ext_leb_trans; eassumption.
  Qed.

  Lemma good_t s t : good s -> good (set_t t s).
  Proof. exact (fun H => H). Qed.
  Lemma pres_wp {A} (m : M A) s : pres good m -> good s -> wp (fun _ => bnd) m (fun _ => good) s.
  Proof. intros H G. eapply wp_mono; [apply H, G|auto|]. intros _ s' [B _]. exact B. Qed.

  Lemma improve_good cands s : Forall (in_dom I) cands -> good s -> wp (fun _ => bnd) (improve_vlb w I cands) (fun _ => good) s.
  Proof.
    intros HD [HB HI]. unfold improve_vlb. apply wp_bind, wp_get.
    destruct HO as (_ & HA & _). assert (SP := incumbent_spec (w_norm w) (w_argsort w) I cands (a_vUB s) (a_vLB s) HA).
    destruct (incumbent_bound _ _ _ _ _ _) as [[x v]|]; [|apply wp_ret; split; assumption].
    destruct SP as (S1 & S2 & (S3 & S4 & S5) & _). rewrite Forall_forall in HD. specialize (HD x S1).
    assert (F : cc_feasible I tol6 x) by (split; assumption).
    assert (N := obj_nonneg I x HP HD). rewrite <- S2 in S3, S4, N. assert (S2q : (v == obj I x)%Q) by (rewrite S2; reflexivity).
    assert (HL : ext_leb (a_vLB s) (Fin v) = true) by (apply ext_leb_add_l in S4; [exact S4|lra]).
    assert (B' : bndv (a_vUB s) (Fin v) (a_lb s)). { apply bndv_vLB with (a_vLB s); try assumption. exists x. split; [exact F|lra]. }
    apply wp_bind, wp_put; intros _; [exact HB|]. apply wp_put; intros _; [exact B'|].
    split; [exact B'|]. right. exists v, x. repeat split; try apply F. lra.
  Qed.

  Lemma cost_good (P : ast -> Prop) S s : (forall s t, P s -> P (set_t t s)) -> P s ->
    wp (fun _ => P) (subset_cost w I S) (fun vx s' => P s' /\ answered S (fst vx) (snd vx)) s.
  Proof.
    intros PT H. unfold subset_cost. apply wp_bind, wp_call; try (intros; repeat apply PT; exact H).
    intro NE. apply wp_bind, wp_lift; [|intros; repeat apply PT; exact H].
    intros [[[x z] v] b] E. apply wp_ret. split; [repeat apply PT; exact H|]. exists (Datatypes.S (a_t s)), z, b.
    destruct (w_solve w (Datatypes.S (a_t s)) (deter_model I S)); try discriminate. cbn in E. cbn [fst snd]. congruence.
  Qed.

  Lemma eval_new_good p l : forall s, good s ->
    wp (fun _ => good) (eval_new w I p l) (fun r s' => good s' /\ Forall (in_dom I) (map snd r)) s.
  Proof.
    induction l as [|c l IH]; intros s G; cbn [eval_new]; [apply wp_ret; split; [exact G|constructor]|].
    apply wp_bind, wp_lift; [|intros; exact G]. intros S _. apply wp_bind. eapply wp_mono; [apply cost_good; [exact good_t|exact G]| |auto].
    intros [v x] s1 [G1 A]. cbn [fst snd] in A. apply wp_bind, wp_get.
    eapply wp_bind_mono with (P := fun _ => good).
    { destruct (c <? length (a_costs s1)); apply wp_bind, wp_put; intros _; try exact G1; apply wp_put; intros _; exact G1. }
    intros _ s2 G2. apply wp_bind. eapply wp_mono; [apply IH, G2| |auto]. intros r s3 [G3 F]. apply wp_ret. split; [exact G3|].
    cbn [map snd]. constructor; [now apply answered_facts in A|exact F].
  Qed.
  Lemma eval_targets_good p l : forall s, good s ->
    wp (fun _ => good) (eval_targets w I p l) (fun r s' => good s' /\ Forall (in_dom I) r) s.
  Proof.
    induction l as [|c l IH]; intros s G; cbn [eval_targets]; [apply wp_ret; split; [exact G|constructor]|].
    apply wp_bind, wp_lift; [|intros; exact G]. intros S _. apply wp_bind. eapply wp_mono; [apply cost_good; [exact good_t|exact G]| |auto].
    intros [v x] s1 [G1 A]. cbn [fst snd] in A. apply wp_bind, wp_get. apply wp_bind, wp_lift; [|intros; exact G1]. intros _ _.
    apply wp_bind, wp_put; intros _; [exact G1|]. apply wp_bind, wp_put; intros _; [exact G1|].
    apply wp_bind. eapply wp_mono; [apply IH; exact G1| |auto]. intros r s3 [G3 F]. apply wp_ret. split; [exact G3|].
    constructor; [now apply answered_facts in A|exact F].
  Qed.

  Ltac gs := repeat (pres_step; try (intros; assumption)).

  Lemma refine_good : pres good (refine w I cf).
  Proof. apply pres_refine; intros; assumption. Qed.
  Lemma good_bnd (e : exn) s : good s -> bnd s.
  Proof. intros [B _]. exact B. Qed.

  Lemma good_put f s : (forall s, good s -> good (f s)) -> good s -> wp (fun _ => bnd) (put w f) (fun _ => good) s.
  Proof. intros HF G. apply pres_wp; [|exact G]. apply pres_put; [exact good_t|exact HF]. Qed.
  Lemma good_bind {A B} (m : M A) (k : A -> M B) Q s : wp (fun _ => bnd) m (fun _ => good) s ->
    (forall a s', good s' -> wp (fun _ => bnd) (k a) Q s') -> wp (fun _ => bnd) (mbind m k) Q s.
  Proof. intros H1 H2. eapply wp_bind_mono; [exact H1|exact H2]. Qed.
  Lemma good_lift {A} (r : res A) s : good s -> wp (fun _ => bnd) (lift r) (fun _ => good) s.
  Proof. intro G. apply wp_lift; intros; apply G. Qed.
  Ltac gp := apply good_bind; [apply good_put; [intros ? HH; exact HH|assumption]|
    let s := fresh "s" in let G := fresh "G" in intros _ s G].
  Ltac gl a := apply good_bind; [apply good_lift; assumption|let s := fresh "s" in let G := fresh "G" in intros a s G].

  Lemma split_good s : good s -> wp (fun _ => bnd) (split_step w I cf) (fun _ => good) s.
  Proof.
    intro G. unfold split_step. apply good_bind; [apply pres_wp; [apply refine_good|exact G]|]. clear s G.
    intros R s G. gp. gp. gl V. gp.
    eapply wp_bind_mono with (P := fun r s' => good s' /\ Forall (in_dom I) (map snd r)).
    - eapply wp_mono; [apply eval_new_good; assumption|auto|exact good_bnd].
    - intros r s' [G' F]. apply good_bind; [apply improve_good; assumption|]. intros _ s'' G''. apply wp_ret. exact G''.
  Qed.

  Lemma post_merge_good s : good s -> wp (fun _ => bnd) (post_merge w I) (fun _ => good) s.
  Proof.
    intro G. unfold post_merge. apply wp_bind, wp_get. gl V. gp. gl costs. gl sols. gp. gp.
    eapply wp_bind_mono with (P := fun r s' => good s' /\ Forall (in_dom I) r).
    - eapply wp_mono; [apply eval_targets_good; assumption|auto|exact good_bnd].
    - intros r s' [G' F]. apply improve_good; assumption.
  Qed.
  Lemma merge_good x R nc s : good s -> wp (fun _ => bnd) (merge_step w I cf x R nc) (fun _ => good) s.
  Proof.
    intro G. unfold merge_step. gp. destruct (c_merger cf); [|apply wp_ret; assumption]. gl mx. apply wp_bind, wp_get.
    match goal with |- wp _ (if ?b then _ else _) _ _ => destruct b end; [|apply wp_ret; assumption].
    apply good_bind; [apply good_lift; assumption|]. intros [[kind p] ms] s3 G3. gp. gp. gp.
    apply good_bind; [apply post_merge_good; assumption|]. intros _ s7 G7. apply wp_bind, wp_get.
    apply good_bind.
    - destruct kind; [apply good_lift; assumption|apply wp_ret; assumption].
    - intros _ s8 G8. apply good_put; [intros ? HH; exact HH|exact G8].
  Qed.

  Lemma next_good s : good s -> wp (fun _ => bnd) (next_iteration w cf) (fun _ => good) s.
  Proof. intro G. apply pres_wp; [|exact G]. unfold next_iteration. gs. Qed.

  Lemma index_length s x idx : bnd s ->
    (match c_proj cf with
     | ProjRescaled => do y <- need x ;; index_scenarios (w_norm w) I ProjRescaled (lb_counter (a_lb s)) y
     | pr => index_scenarios (w_norm w) I pr (lb_counter (a_lb s)) []
     end) = Ok idx -> length idx = i_k I.
  Proof.
    intros B E. destruct (c_proj cf).
    - injection E as <-. rewrite map_length. apply (bv_cnt _ _ _ B).
    - destruct x; cbn in E; [|discriminate]. injection E as <-. unfold violation_index. now rewrite map_length, seq_length.
    - discriminate.
  Qed.

  Lemma zero_feasible S : det_feasible I S 0 (repeat 0%Q (i_n I)).
  Proof.
    destruct (zero_point (i_n I)) as [Z1 Z2]. split; [split; auto|]. intros s _ i _. rewrite dot_repeat0.
    assert (0 <= rhs I s i)%Q; [|lra]. unfold rhs. destruct HP as (_ & _ & HB).
    apply nth_Forall; [lra|]. apply nth_Forall; [constructor|exact HB].
  Qed.

  Lemma deterministic_good x s : good s -> wp (fun _ => bnd) (deterministic_bound w I cf x) (fun yv s' => good s' /\
    ((exists y, fst yv = Some y /\ cc_feasible I tol6 y /\ (snd yv == obj I y)%Q) \/ (snd yv = (- 1000000)%Q /\ a_vLB s' <> NInf))) s.
  Proof.
    intros [HB HI]. unfold deterministic_bound. apply wp_bind, wp_get. apply wp_bind, wp_lift; [|intros; exact HB]. intros idx EI.
    apply index_length in EI; [|exact HB]. apply wp_bind, wp_lift; [|intros; exact HB]. intros sel ES.
    destruct (selected_scenarios _ _ _ _ idx) as [[sel'|]|e] eqn:EQ; cbn [rbind need] in ES; try discriminate. injection ES as <-.
    destruct HO as (_ & HA & _).
    assert (SS := selected_spec (w_argsort w) (uniform (i_k I)) (i_eps I) (i_k I) idx sel' HA (uniform_length _) EI EQ).
    destruct SS as (_ & _ & ND & _). apply wp_bind, wp_lift; [|intros; exact HB]. intros lb EL.
    destruct (bv_cut _ _ _ HB) as (cuts & C1 & C2).
    destruct (lb_prepare_good I cuts (a_lb s) (a_vLB s) sel' C1 ND) as (lb' & E' & L1 & L2 & _ & L4). rewrite EL in E'. injection E' as <-.
    set (cuts' := cuts ++ _) in L1.
    assert (C' : Forall (fun v => ext_leb v (a_vLB s) = true) cuts').
    { apply Forall_app. split; [exact C2|]. destruct (ext_leb (lb_prev (a_lb s)) (a_vLB s)); repeat constructor. apply ext_leb_refl'. }
    clearbody cuts'.
    assert (B' : bndv (a_vUB s) (a_vLB s) lb).
    { destruct HB as [B1 B2 B3 B4 B5 B6]. constructor; auto; [now exists cuts'|]. now rewrite L4. }
    apply wp_bind, wp_put; intros _; [exact B'|]. set (s1 := bump _).
    assert (G1 : good s1) by (split; [exact B'|exact HI]). change (a_vLB s) with (a_vLB s1) in C'. clearbody s1.
    apply wp_bind, wp_call; try (intros; apply G1). intro NI.
    assert (OK := sg_ok _ _ _ _ _ HS (S (a_t s1)) (lb_model I lb)). destruct (w_solve w (S (a_t s1)) (lb_model I lb)) as [y z v b| | |]; try congruence.
    - destruct OK as (M1 & M2 & _). apply wp_lift; [|discriminate]. cbn. intros r ER. injection ER as <-. cbn [fst snd]. split; [exact G1|].
      left. exists y. split; [reflexivity|].
      assert (z = []) by (destruct M1 as (_ & LZ & _); apply length_zero_iff_nil; exact LZ). subst z.
      apply (lb_good_model I cuts' lb tau y L1) in M1 as [M1 _]. rewrite L2 in M1. destruct HEps as [HE1 HE2].
      split; [apply cc_tau, (selected_cc_feasible (w_argsort w) I idx sel' tau y); try assumption; apply HW|].
      rewrite M2. unfold m_val, obj. cbn [m_obj m_const lb_model]. lra.
    - apply wp_lift; [|discriminate]. cbn. intros r ER. injection ER as <-. cbn [fst snd]. split; [exact G1|]. right. split; [reflexivity|].
      change (a_vLB (bump (bump s1))) with (a_vLB s1). intro EN. apply (OK (repeat 0%Q (i_n I)) []).
      apply (lb_good_model I cuts' lb 0 _ L1). split; [apply zero_feasible|]. eapply Forall_impl; [|exact C']. cbv beta. intros a Ha.
      rewrite EN in Ha. destruct a; try discriminate. exact Logic.I.
    - apply wp_lift; [discriminate|]. intros; apply G1.
  Qed.

  Lemma store_good s : good s -> wp (fun _ => bnd) (store_info w) (fun _ => good) s.
  Proof. intro G. apply pres_wp; [|exact G]. unfold store_info. gs. Qed.

  Lemma lower_good x s : good s -> wp (fun _ => bnd) (lower_bound_step w I cf x)
    (fun g s' => good s' /\ compute_gap (a_vUB s') (a_npU s') (a_vLB s') (a_npL s') = Ok g) s.
  Proof.
    intro G. unfold lower_bound_step. apply wp_bind. eapply wp_mono; [apply deterministic_good, G| |auto].
    intros [y v] s1 [[B1 I1] H]. cbn [fst snd] in H. apply wp_bind, wp_get.
    eapply wp_bind_mono with (P := fun _ => good).
    - destruct (ext_ltb (a_vLB s1) (Fin v)) eqn:E; [|apply wp_ret; split; assumption].
      destruct H as [(y' & -> & F & EV)|[-> NI]].
      + assert (N := obj_nonneg I y' HP (proj1 F)). apply ext_ltb_leb in E.
        assert (B' : bndv (a_vUB s1) (Fin v) (a_lb s1)). { apply bndv_vLB with (a_vLB s1); try assumption; [lra|]. exists y'. split; [exact F|lra]. }
        apply wp_bind, wp_put; intros _; [exact B'|]. apply wp_put; intros _; [exact B'|]. split; [exact B'|].
        right. exists v, y'. repeat split; try apply F. lra.
      + exfalso. destruct (bv_l0 _ _ _ B1) as [C|(l & EL & L0)]; [contradiction|]. rewrite EL in E. unfold ext_ltb in E. cbn in E.
        apply negb_true_iff in E. assert (Qle_bool (- 1000000) l = true) by (apply Qle_bool_iff; lra). congruence.
    - intros _ s2 G2. apply wp_bind. unfold gap_now. apply wp_bind, wp_get, wp_lift; [|intros; apply G2]. intros g EG.
      apply wp_bind. set (P := fun s' : ast => good s' /\ compute_gap (a_vUB s') (a_npU s') (a_vLB s') (a_npL s') = Ok g).
      eapply wp_mono with (E := fun _ => P) (Q := fun _ => P); [| |intros e s' [[A _] _]; exact A].
      + assert (P2 : P s2) by (split; assumption). revert s2 G2 EG P2. intros s2 _ _ P2.
        assert (PP : pres P (store_info w)) by (unfold store_info; gs). apply PP, P2.
      + intros _ s3 H3. exact H3.
  Qed.

  (** ** Upper bound *)
  Lemma shaped_same s s' : a_part s' = a_part s -> a_nb s' = a_nb s -> a_view s' = a_view s -> a_costs s' = a_costs s ->
    a_sols s' = a_sols s -> a_ref s' = a_ref s -> shaped s -> shaped s'.
  Proof. intros C1 C2 C3 C4 C5 C6 [B1 B2 B3 B4 B5 B6]. constructor; rewrite ?C1, ?C2, ?C3, ?C4, ?C5, ?C6; assumption. Qed.

  (** The big M's are valid for the feasible points. *)
  Definition ms_ok (s : ast) : Prop := c_bigM cf = true -> min_size I < a_nb s -> forall y, cc_feasible I 0 y -> forall c i, c < v_k (a_view s) -> i < v_m (a_view s) c ->
    (dot (v_row (a_view s) c i) y - v_rhs (a_view s) c i <= nth i (nth c (a_bigM s) []) 0)%Q.
  Definition state_ok (s : ast) : Prop := good s /\ shaped s.

  Lemma state_ok_set s s' : a_part s' = a_part s -> a_nb s' = a_nb s -> a_view s' = a_view s -> a_costs s' = a_costs s ->
    a_sols s' = a_sols s -> a_ref s' = a_ref s -> a_vUB s' = a_vUB s -> a_vLB s' = a_vLB s -> a_xLB s' = a_xLB s -> a_lb s' = a_lb s ->
    state_ok s -> state_ok s'.
  Proof.
    intros C1 C2 C3 C4 C5 C6 C7 C8 C9 C10 [[B1 B2] B3]. split; [|now apply (shaped_same s)].
    unfold good, bnd, inc in *. rewrite C7, C8, C9, C10. split; assumption.
  Qed.

  Lemma view_is s : shaped s -> is_view I (a_view s) /\ v_k (a_view s) = a_nb s.
  Proof.
    intros [B1 B2 B3 B4 B5 B6]. rewrite B2 in B4. split.
    - right. eauto.
    - rewrite B2. apply (view_data I (a_part s) (a_view s) HW B1 B4).
  Qed.

  Lemma naive_ms s : shaped s -> a_bigM s = naive_all (a_view s) (a_nb s) -> ms_ok s.
  Proof.
    intros SH EB _ _ y [[Y1 _] _] c i Hc Hi. destruct (view_is s SH) as [V1 V2]. rewrite EB, <- V2.
    now apply (naive_valid I (a_view s) HW HP V1).
  Qed.
  Lemma song_ms s Ms : shaped s -> min_size I < a_nb s ->
    (do tab <- song_all I (compute_all_violations (w_sort w) I) (Some (a_part s)) (v_eps (a_view s)) (a_nb s) ;; to_floats tab) = Ok Ms ->
    a_bigM s = Ms -> ms_ok s.
  Proof.
    intros SH HN E EB _ _ y [[Y1 Y1'] Y2] c i Hc Hi. destruct SH as [B1 B2 B3 B4 B5 B6]. rewrite B2 in B4.
    rewrite min_size_tolerated in HN by (apply eps_nonneg).
    destruct (song_part (w_sort w) HSo I HW (proj1 (proj2 HP)) (a_part s) (a_view s) B1 B4 eps_nonneg) as [_ H].
    destruct (H ltac:(lia)) as (Ms' & E' & _ & BV). rewrite B2, E' in E. cbn [rbind] in E. rewrite to_floats_fin in E. injection E as <-.
    rewrite EB. apply BV; auto. split; [exact Y1|]. apply tolerated_le in Y2; [|apply eps_nonneg].
    eapply Nat.le_trans; [|exact Y2]. now apply nunsat_le_nviol.
  Qed.

  Lemma big_M_good s : state_ok s -> wp (fun _ => bnd) (big_M w I cf) (fun _ s' => state_ok s' /\ ms_ok s') s.
  Proof.
    intros OK. unfold big_M. apply wp_bind, wp_get. destruct (c_bigM cf && (min_size I <? a_nb s)) eqn:EC.
    2:{ apply wp_ret. split; [exact OK|]. intros C1 C2. apply Nat.ltb_lt in C2. rewrite C1, C2 in EC. discriminate. }
    apply andb_prop in EC as [EB0 EN]. apply Nat.ltb_lt in EN. unfold update_big_M. apply wp_bind, wp_get.
    set (P := fun s' : ast => (state_ok s' /\ min_size I < a_nb s') /\ a_bigM s' = naive_all (a_view s') (a_nb s')).
    eapply wp_bind_mono with (P := fun _ => P).
    { apply wp_put; intros _; [apply OK|].
      split; [split; [revert OK; apply state_ok_set; reflexivity|exact EN]|reflexivity]. }
    clear s OK EN. intros _ s [[OK EN] EB]. assert (SH := proj2 OK). assert (BD := proj1 (proj1 OK)). destruct (c_method cf) eqn:EMT.
    - now destruct (HFree EB0).
    - apply wp_bind, wp_get. eapply wp_bind_mono with (P := fun Ms s' => s' = s /\ 
        (do tab <- song_all I (compute_all_violations (w_sort w) I) (Some (a_part s)) (v_eps (a_view s)) (a_nb s) ;; to_floats tab) = Ok Ms).
      + apply wp_lift; [auto|intros; exact BD].
      + intros Ms s1 (-> & E). apply wp_put; intros _; [exact BD|].
        assert (OK' : state_ok (bump (set_bigM Ms s))) by (revert OK; apply state_ok_set; reflexivity).
        split; [exact OK'|]. apply (song_ms _ Ms); [apply OK'|exact EN|exact E|reflexivity].
    - apply wp_ret. split; [exact OK|]. now apply naive_ms.
    - apply wp_raise. exact BD.
  Qed.

  Lemma solve_cclp_spec V um lz Ms st pr time gap s : bnd s ->
    wp (fun _ => bnd) (solve_cclp w V um lz Ms st pr time gap) (fun r s' => (exists t, s' = set_t t s) /\
      exists m limit t, cclp_model V um lz Ms st pr gap limit = Ok m /\
        w_solve w t m = Solved (fst (fst (fst r))) (snd (fst (fst r))) (snd (fst r)) (snd r)) s.
  Proof.
    intro B. unfold solve_cclp. apply wp_bind, wp_clock. apply wp_bind, wp_lift; [|intros; exact B]. intros m0 _.
    apply wp_bind, wp_clock. match goal with |- wp _ (if ?b then _ else _) _ _ => destruct b end; [apply wp_raise; exact B|].
    apply wp_bind, wp_lift; [|intros; exact B]. intros m EM. apply wp_bind, wp_call; try (intros; exact B). intro NI.
    apply wp_lift; [|intros; exact B]. intros [[[x z] vo] vb] E. split; [eexists; reflexivity|]. cbn [fst snd].
    destruct (w_solve w _ m) as [x' z' vo' vb'| | |] eqn:EW; try discriminate. injection E as -> -> -> ->.
    do 3 eexists. split; [exact EM|exact EW].
  Qed.

  (** Answer of the upper bound: solution, objective, bound. *)
  Definition ub_answer (l : ext) (x : list Q) (vo vb : Q) : Prop :=
    in_dom I x /\ (vo == obj I x)%Q /\ (vo <= vb)%Q /\ (vb <= vo + delta)%Q /\ (0 <= vb)%Q /\
    forall y, cc_feasible I 0 y -> (obj I y / (1 + eta) <= vb)%Q \/ ext_leb (Fin (obj I y / (1 + eta))%Q) l = true.

  Lemma partition_bound_good s : state_ok s -> ms_ok s -> a_nb s <> min_size I ->
    wp (fun _ => bnd) (partition_bound w I cf) (fun r s' => (exists t, s' = set_t t s) /\
      ub_answer (a_vLB s) (fst (fst (fst r))) (snd (fst r)) (snd r)) s.
  Proof.
    intros OK MS NN. assert (BD := proj1 (proj1 OK)). unfold partition_bound. apply wp_bind, wp_available. apply wp_bind, wp_get.
    apply wp_bind, wp_lift; [|intros; exact BD]. intros zUB _.
    eapply wp_bind_mono; [apply solve_cclp_spec; exact BD|].
    intros [[[x z] vo] vb] s' ((t & ->) & m & limit & t' & EM & EW). cbn [fst snd] in EW. apply wp_bind, wp_get.
    apply wp_bind, wp_lift; [|intros; exact BD]. intros _ _. apply wp_ret. cbn [fst snd]. split; [eexists; reflexivity|].
    change (a_view (bump s)) with (a_view s) in EM. change (a_bigM (bump s)) with (a_bigM s) in EM.
    change (a_costs (bump s)) with (a_costs s) in EM. change (a_vLB (bump s)) with (a_vLB s) in EM.
    set (st := get_z_start zUB _) in EM. clearbody st.
    destruct (proj2 OK) as [B1 B2 B3 B4 (B5 & B5' & B5'') B6]. rewrite B2 in B4.
    destruct (view_data _ _ _ HW B1 B4) as (N1 & N2 & N3 & N4).
    assert (OM := sg_ok _ _ _ _ _ HS t' m). assert (GM := sg_gap _ _ _ _ _ HS t' m x z vo vb). rewrite EW in OM.
    destruct OM as (M1 & M2 & M3 & M4).
    assert (MV : forall y, (m_val m y == obj I y)%Q).
    { intro y. apply cclp_shape in EM as (r & _ & -> & _). unfold m_val, obj. cbn [m_obj m_const]. rewrite N3. lra. }
    assert (Dx : in_dom I x).
    { apply cclp_shape in EM as (r & _ & -> & _). destruct M1 as (D & _). cbn [m_n m_cont] in D. rewrite N1, N2 in D. exact D. }
    assert (EV : (vo == obj I x)%Q) by (rewrite M2; apply MV). assert (N0 := obj_nonneg I x HP Dx).
    split; [exact Dx|]. split; [exact EV|]. split; [exact M3|]. split; [|split; [lra|]].
    { apply GM; [|exact EW]. apply cclp_shape in EM as (r & _ & -> & _). reflexivity. }
    intros y Fy. assert (Ny := obj_nonneg I y HP (proj1 Fy)).
    destruct (cclp_admits_pruned I (a_part s) (a_view s) (c_bigM cf) (c_lazy cf) (a_bigM s) st (a_costs s) (a_vLB s) (1 # 100000000)%Q limit m y)
      as [_ [A|(c & A1 & A2 & A3)]]; try assumption.
    - intros UM c i Hc Hi. apply MS; auto. rewrite min_size_tolerated in * by apply eps_nonneg. lia.
    - destruct Fy as [Y1 Y2]. split; [exact Y1|]. eapply Qle_trans; [|exact Y2]. apply Qn_le. now apply nunsat_le_nviol.
    - left. apply div_le; [exact Ny|]. rewrite <- (MV y). exact (M4 _ _ A).
    - right. assert (D := answered_bound _ _ _ (B5'' c A2) y A3). apply prune_In in A1 as [_ A1].
      destruct (a_vLB s) as [|v|]; [destruct A1| |reflexivity]. cbn. apply Qle_bool_iff. lra.
  Qed.

  Lemma first_good s r : state_ok s -> a_nb s = min_size I -> first_iteration_bound (a_costs s) (a_sols s) = Ok r ->
    ub_answer (a_vLB s) (fst (fst (fst r))) (snd (fst r)) (snd r).
  Proof.
    intros [[BD _] [B1 B2 B3 B4 (B5 & B5' & B5'') B6]] EN E. destruct r as [[[x z] vo] vb]. cbn [fst snd].
    rewrite min_size_tolerated in EN by apply eps_nonneg.
    unfold first_iteration_bound in E. destruct (argmax (a_costs s)) as [c|] eqn:EA; cbn [rbind] in E; [|discriminate].
    apply argmax_spec in EA as [Hc Hmax].
    rewrite (geti_ok (a_sols s) c []) in E by lia. cbn [rbind] in E.
    rewrite (geti_ok (a_costs s) c 0%Q) in E by lia. cbn [rbind] in E. injection E as <- <- <- <-.
    destruct (answered_facts _ _ _ (B5'' c ltac:(lia))) as (A1 & A2 & A3 & A4). assert (D0 := sg_delta _ _ _ _ _ HS).
    split; [exact A1|]. split; [exact A3|]. split; [lra|]. split; [lra|]. split; [exact A4|].
    intros y [Y1 Y2]. left.
    assert (Y3 : nunsat I 0 y (a_part s) <= tolerated I).
    { apply tolerated_le in Y2; [|apply eps_nonneg]. eapply Nat.le_trans; [|exact Y2]. now apply nunsat_le_nviol. }
    destruct (count_exists_false (subset_satb I 0 y) (a_part s)) as (S & HIn & HSat); [unfold nunsat in Y3; lia|].
    apply In_nth with (d := []) in HIn as (d & Hd & <-).
    eapply Qle_trans; [apply (answered_bound _ _ _ (B5'' d Hd)); split; [assumption|now apply subset_satb_iff]|].
    apply Hmax. lia.
  Qed.

  (** The loop is left with a feasible point. *)
  Definition exit_ok (s : ast) : Prop := exists x u vb, cc_feasible I tol6 x /\ a_vUB s = Fin u /\ (obj I x <= vb /\ vb <= obj I x + delta)%Q /\
    ((u = vb /\ a_xUB s = Some x) \/ (u + (1 # 100000000) < vb)%Q).

  Lemma bnd_vUB u l lb x vo vb : bndv u l lb -> ub_answer l x vo vb -> bndv (Fin vb) l lb.
  Proof.
    intros [B1 B2 B3 B4 B5 B6] (_ & _ & _ & _ & A5 & A6). constructor; auto.
    - intros y Fy. destruct (A6 y Fy) as [H'|H']; [left|now right]. cbn. now apply Qle_bool_iff.
    - cbn. now apply Qle_bool_iff.
  Qed.
  Lemma bnd_save u l lb x ok f : bndv u l lb -> check_feasibility (w_norm w) I x = (ok, f) ->
    bndv u l (save_feasible lb (get_feasible_scenarios f)).
  Proof.
    intros [B1 B2 B3 B4 (cuts & C1 & C2) B6] E. constructor; auto.
    - exists cuts. split; [|exact C2]. destruct C1 as (A1 & A2 & A3 & A4 & A5). repeat split; assumption.
    - assert (LF := check_feasibility_feasible (w_norm w) (proj1 (proj2 (proj2 HO))) I x). rewrite E in LF. cbn [snd] in LF. rewrite LF. unfold save_feasible. cbn [lb_counter].
      rewrite map_length, combine_length, map_length, seq_length, B6. lia.
  Qed.

  Lemma store_pres (P : ast -> Prop) : (forall s t, P s -> P (set_t t s)) -> (forall s l, P s -> P (set_log l s)) -> pres P (store_info w).
  Proof. intros H1 H2. unfold store_info. repeat (pres_step; auto). Qed.

  Lemma upper_good s : state_ok s -> ms_ok s -> wp (fun _ => bnd) (upper_bound_step w I cf)
    (fun r s' => good s' /\ (snd r = true -> exit_ok s')) s.
  Proof.
    intros OK MS. unfold upper_bound_step. apply wp_bind, wp_get.
    eapply wp_bind_mono with (P := fun r s' => (exists t, s' = set_t t s) /\
      ub_answer (a_vLB s) (fst (fst (fst r))) (snd (fst r)) (snd r)).
    { destruct (a_nb s =? min_size I) eqn:EN.
      - apply wp_lift; [|intros; apply OK]. intros r ER. split; [exists (a_t s); destruct s; reflexivity|]. apply first_good; [exact OK|now apply Nat.eqb_eq|exact ER].
      - apply partition_bound_good; try assumption. now apply Nat.eqb_neq. }
    intros [[[x z] vo] vb] s1 ((t & ->) & UA). cbn [fst snd] in UA.
    assert (G1 := proj1 OK). apply wp_bind, wp_available.
    match goal with |- wp _ (if ?b then _ else _) _ _ => destruct b end.
    { apply wp_bind, wp_get, wp_ret. split; [exact G1|discriminate]. }
    destruct (check_feasibility (w_norm w) I x) as [ok f] eqn:EC.
    set (P := fun s' : ast => good s' /\ a_vUB s' = a_vUB s /\ a_vLB s' = a_vLB s).
    eapply wp_bind_mono with (P := fun _ => P).
    { apply wp_put; intros _; [apply G1|]. split; [exact G1|split; reflexivity]. }
    clear G1. intros _ s2 (G2 & U2 & L2).
    eapply wp_bind_mono with (P := fun _ => P).
    { apply wp_put; intros _; [apply G2|]. split; [exact G2|split; assumption]. }
    clear s2 G2 U2 L2. intros _ s2 (G2 & U2 & L2). apply wp_bind, wp_get.
    set (R := fun s' : ast => good s' /\ (ok = true -> exit_ok s')).
    assert (EF : ok = true -> cc_feasible I tol6 x).
    { intros ->. split; [apply UA|]. assert (V := check_feasibility_verdict (w_norm w) I x). rewrite EC in V. apply V. reflexivity. }
    eapply wp_bind_mono with (P := fun _ => R).
    - destruct (ext_leb (Fin vb) (ext_add (a_vUB s2) (1 # 100000000))) eqn:E1.
      + rewrite <- L2 in UA. assert (B' := bnd_vUB _ _ _ _ _ _ (proj1 G2) UA).
        assert (E2 : ext_leb (Fin vo) (ext_add (a_vUB s2) (1 # 100000000)) = true).
        { eapply ext_leb_trans; [|exact E1]. apply Qle_bool_iff. apply UA. }
        rewrite E2. eapply wp_bind_mono with (P := fun _ s' => good s' /\ a_vUB s' = a_vUB s2 /\ a_vLB s' = a_vLB s2 /\ a_lb s' = a_lb s2 /\ a_xUB s' = Some x).
        { apply wp_put; intros _; [apply G2|]. split; [exact G2|]. repeat split; reflexivity. }
        intros _ s3 (G3 & U3 & L3 & LB3 & X3).
        assert (B3 : bndv (Fin vb) (a_vLB s3) (a_lb s3)) by (rewrite L3, LB3; exact B').
        apply wp_put; intros _; [exact B3|]. split; [split; [exact B3|apply G3]|]. intro Eok. exists x, vb, vb.
        split; [now apply EF|]. split; [reflexivity|]. destruct UA as (_ & A2 & A3 & A4 & _). split; [lra|]. left. split; [reflexivity|exact X3].
      + apply wp_ret. split; [exact G2|]. intro Eok. destruct UA as (_ & A2 & A3 & A4 & _).
        assert (U0 := bv_u0 _ _ _ (proj1 G2)). destruct (a_vUB s2) as [|u|] eqn:EU; try discriminate. cbn in E1.
        exists x, u, vb. split; [now apply EF|]. split; [exact EU|]. split; [lra|]. right.
        apply Qnot_le_lt. intro C. apply Qle_bool_iff in C. congruence.
    - clear s2 G2 U2 L2. intros _ s2 [G2 X2].
      eapply wp_bind_mono with (P := fun _ => R).
      { apply wp_put; intros _; [exact (bnd_save _ _ _ _ _ _ (proj1 G2) EC)|].
        split; [split; [exact (bnd_save _ _ _ _ _ _ (proj1 G2) EC)|apply G2]|exact X2]. }
      clear s2 G2 X2. intros _ s2 R2. eapply wp_bind_mono with (P := fun _ => R).
      + eapply wp_mono with (E := fun _ => R) (Q := fun _ => R); [apply store_pres; [| |exact R2]|auto|intros e s' [A _]; apply A].
        * intros s3 t3 H. exact H.
        * intros s3 l3 H. exact H.
      + intros _ s3 R3. apply wp_ret. exact R3.
  Qed.

  (** ** The loop *)
  Lemma wp_conj {A} (E1 E2 : exn -> ast -> Prop) (m : M A) (Q1 Q2 : A -> ast -> Prop) s : wp E1 m Q1 s -> wp E2 m Q2 s ->
    wp (fun e s => E1 e s /\ E2 e s) m (fun a s => Q1 a s /\ Q2 a s) s.
  Proof. unfold wp. destruct (m s) as [[a|e] s']; auto. Qed.

  Definition gap_exit (s : ast) : Prop := exists g, compute_gap (a_vUB s) (a_npU s) (a_vLB s) (a_npL s) = Ok g /\ gap_leb g (c_gap cf) = true.
  Definition left_ok (v : verdict) (s : ast) : Prop := (v = Feasible -> exit_ok s) /\ (v = GapReached -> gap_exit s).

  Lemma bound_good s : state_ok s -> wp (fun _ => bnd) (bound_phase w I cf) (fun r s' => good s' /\ forall v, r = inl v -> left_ok v s') s.
  Proof.
    intro OK. rewrite bound_phase_eq. eapply wp_bind_mono with (P := fun _ s' => s' = s).
    { unfold gap_now. apply wp_bind, wp_get, wp_lift; [reflexivity|intros; apply OK]. }
    intros _ s1 ->. eapply wp_bind_mono; [apply big_M_good, OK|]. intros _ s1 [OK1 MS1]. clear s OK.
    eapply wp_bind_mono; [apply upper_good; assumption|]. clear s1 OK1 MS1. intros [x ok] s [G X]. cbn [snd] in X. unfold after_upper. destruct ok.
    { apply wp_ret. split; [exact G|]. intros v E. injection E as <-. split; [auto|discriminate]. }
    apply wp_bind, wp_available. match goal with |- wp _ (if ?b then _ else _) _ _ => destruct b end.
    { apply wp_ret. split; [exact G|]. intros v E. injection E as <-. split; discriminate. }
    eapply wp_bind_mono; [apply lower_good; exact G|]. clear s G X. intros g s [G EG].
    match goal with |- wp _ (if ?b then _ else _) _ _ => destruct b eqn:EL end.
    { apply wp_ret. split; [exact G|]. intros v E. injection E as <-. split; [discriminate|]. intros _. now exists g. }
    apply wp_bind, wp_available. match goal with |- wp _ (if ?b then _ else _) _ _ => destruct b end; apply wp_ret; (split; [exact G|]).
    - intros v E. injection E as <-. split; discriminate.
    - discriminate.
  Qed.

  Lemma iteration_good s : state_ok s -> wp (fun _ => bnd) (iteration w I cf) (fun v s' => good s' /\ left_ok v s') s.
  Proof.
    intro OK. rewrite iteration_eq. eapply wp_bind_mono; [apply bound_good, OK|]. clear s OK. intros [v|x] s [G L]; unfold after_bounds.
    - apply wp_ret. split; [exact G|]. now apply L.
    - eapply wp_bind_mono; [apply split_good, G|]. clear s G L. intros [R nc] s G.
      eapply wp_bind_mono; [apply merge_good, G|]. clear s G. intros [] s G.
      unfold next_iteration. apply wp_bind, wp_available. match goal with |- wp _ (if ?b then _ else _) _ _ => destruct b end.
      { apply wp_ret. split; [exact G|split; discriminate]. }
      assert (G1 : good (bump s)) by exact G. revert G1. generalize (bump s). clear s G. intros s G. gp.
      apply wp_bind, wp_available. match goal with |- wp _ (if ?b then _ else _) _ _ => destruct b end; apply wp_ret; (split; [exact G0|split; discriminate]).
  Qed.

  Lemma loop_good fuel : forall s, state_ok s -> fe_ok w I s ->
    wp (fun _ => bnd) (main_loop w I cf fuel) (fun v s' => good s' /\ left_ok v s') s.
  Proof.
    induction fuel as [|n IH]; intros s OK FE; cbn [main_loop].
    { apply wp_raise. apply OK. }
    apply wp_bind. eapply wp_mono; [eapply wp_conj; [apply iteration_good, OK|apply (iteration_inv w I cf HO HW eps_nonneg s (proj2 OK) FE)]| |intros e s' [B _]; exact B].
    intros v s' [[G L] [SH FE']]. destruct v; try (apply wp_ret; split; assumption). apply IH; [split; assumption|auto].
  Qed.

  (** ** Construction *)
  Lemma good_init : good (ast0 I).
  Proof.
    split; [|left; reflexivity]. constructor.
    - intros x _. left. reflexivity.
    - left. reflexivity.
    - left. reflexivity.
    - reflexivity.
    - exists []. split; [apply lb_init_good|constructor].
    - cbn. rewrite ?repeat_length. reflexivity.
  Qed.

  Lemma ahmed_good u l lb costs i v : bndv u l lb -> length costs = i_k I ->
    (forall t, t < i_k I -> exists x, answered [t] (nth t costs 0%Q) x) ->
    ahmed_bound (w_argsort w) costs (uniform (i_k I)) (i_eps I) = Ok (Some (i, v)) -> bndv (Fin v) l lb.
  Proof.
    intros [B1 B2 B3 B4 B5 B6] LC HC HB. destruct HO as (_ & HA & _). assert (K0 : 0 < i_k I) by apply HW. constructor; auto.
    - intros y Fy. left. cbn. apply Qle_bool_iff.
      set (I' := mkInst (i_n I) (i_m I) (i_k I) (i_cont I) (i_eps I) (map (fun q => q / (1 + eta))%Q (i_c I)) (i_A I) (i_b I)).
      assert (EO : forall x, (obj I' x == obj I x / (1 + eta))%Q).
      { intro x. unfold obj. cbn [I' i_c]. clear. revert x. induction (i_c I) as [|c l IH]; intros [|a x]; cbn [map dot]; try (unfold Qdiv; lra).
        rewrite (IH x). unfold Qdiv. ring. }
      rewrite <- (EO y). apply (ahmed_upper_bound (w_argsort w) I' costs i v HA K0 LC); [|exact HB|exact Fy].
      intros t x Ht Hx. rewrite (EO x). destruct (HC t Ht) as (x' & A). exact (answered_bound _ _ _ A x Hx).
    - destruct (ahmed_some (w_argsort w) costs (uniform (i_k I)) (i_eps I) HA ltac:(rewrite uniform_length; exact LC) i v HB) as (E1 & E2 & _).
      rewrite uniform_length in E2. destruct (HC i E2) as (x & A). rewrite E1 in A. apply answered_facts in A. cbn. apply Qle_bool_iff. apply A.
  Qed.

  Lemma costs_good l : forall s, good s -> wp (fun _ => bnd) (mmap (subset_cost w I) l)
    (fun r s' => good s' /\ Forall2 (fun S vx => answered S (fst vx) (snd vx)) l r) s.
  Proof.
    induction l as [|S l IH]; intros s G; cbn [mmap].
    - apply wp_ret. split; [exact G|constructor].
    - eapply wp_bind_mono with (P := fun vx s' => good s' /\ answered S (fst vx) (snd vx)).
      { eapply wp_mono; [apply (cost_good good); [exact good_t|exact G]|auto|exact good_bnd]. }
      intros vx s1 [G1 A]. eapply wp_bind_mono; [apply IH, G1|]. intros r s2 [G2 F]. apply wp_ret. split; [exact G2|]. constructor; assumption.
  Qed.

  Lemma setup_good s : good s -> wp (fun _ => bnd) (setup_initial_partition w I cf) (fun _ => good) s.
  Proof.
    intro G. unfold setup_initial_partition. gp. gl a.
    eapply wp_bind_mono with (P := fun costs s' => good s' /\ (c_init cf = InitCost -> length costs = i_k I /\
      forall t, t < i_k I -> exists x, answered [t] (nth t costs 0%Q) x)).
    { destruct (c_init cf); try (apply wp_ret; split; [assumption|discriminate]).
      unfold all_scenario_costs. apply wp_bind. apply (wp_mmap_map _ (subset_cost w I) (fun s => [s])).
      eapply wp_mono; [apply costs_good; assumption| |auto]. intros r s' [G' F]. apply wp_ret. split; [exact G'|]. intros _. split.
      - apply Forall2_len in F. rewrite map_length, seq_length in F. now rewrite map_length.
      - apply (Forall2_nth_singletons w I (i_k I) 0 r F). }
    intros costs s' [G' HC]. apply wp_bind, wp_get. gl p. gp. gp. gl V. gp.
    destruct (c_init cf); try (apply wp_ret; assumption). destruct (HC eq_refl) as [LC HC'].
    apply wp_bind, wp_lift; [|intros; now apply (good_bnd KeyboardInterrupt)]. intros [[i v]|] EA; [|apply wp_ret; assumption].
    match goal with G : good ?s |- wp _ _ _ ?s => destruct G as [GB GI]; assert (B' := ahmed_good _ _ _ costs i v GB LC HC' EA) end.
    apply wp_bind, wp_put; intros _; [exact B'|]. apply wp_ret. split; [exact B'|exact GI].
  Qed.

  Lemma construct_good : wp (fun _ => bnd) (construct w I cf) (fun _ => good) (ast0 I).
  Proof.
    unfold construct. apply wp_bind, wp_clock. assert (G : good (bump (ast0 I))) by exact good_init. revert G. generalize (bump (ast0 I)). intros s G.
    gp. gl a. eapply wp_bind_mono; [apply setup_good; assumption|]. intros b s' G'. apply wp_bind, wp_get. gp. apply wp_ret. assumption.
  Qed.

  Lemma prologue_good b s : good s -> wp (fun _ => bnd) (prologue w I cf b) (fun v s' => good s' /\ v <> Feasible /\ v <> GapReached) s.
  Proof.
    intro G. unfold prologue. apply wp_bind, wp_get. unfold partition_cost. apply wp_bind.
    eapply wp_bind_mono; [apply costs_good; exact G|]. intros r s1 [G1 F]. apply wp_ret. gp. gp. gl a.
    eapply wp_bind_mono; [apply improve_good; [|assumption]|].
    { apply Forall_forall. intros x Hx. apply in_map_iff in Hx as (vx & <- & Hvx). clear -F Hvx HS HP.
      induction F as [|S vx' l r A F IH]; [contradiction|]. destruct Hvx as [->|Hvx]; [|auto]. apply answered_facts in A. apply A. }
    intros [] s9 G9. gp. apply wp_bind, wp_available, wp_ret. split; [assumption|].
    match goal with |- context [if ?b then _ else _] => destruct b end; split; discriminate.
  Qed.

  Lemma explore_good fuel : wp (fun _ => bnd) (fun s => (let! b := construct w I cf in
   let! v := prologue w I cf b in
   match v with Continue => main_loop w I cf fuel | _ => mret v end)%mon s) (fun v s' => good s' /\ left_ok v s') (ast0 I).
  Proof.
    apply wp_bind. eapply wp_mono; [eapply wp_conj; [apply construct_good|apply (construct_inv w I cf HO eps_nonneg)]| |intros e s' [B _]; exact B].
    intros b s [G C]. apply wp_bind. eapply wp_mono; [eapply wp_conj; [apply prologue_good, G|apply (prologue_inv w I cf b s C)]| |intros e s' [B _]; exact B].
    intros v s' [(G' & N1 & N2) (SH & FE & _)]. destruct v; try contradiction.
    - apply loop_good; [split; assumption|now left].
    - apply wp_ret. split; [exact G'|split; discriminate].
  Qed.

  Lemma explore_out fuel r s : explore w I cf fuel = (r, s) -> bnd s /\ forall v, r = Ok v -> good s /\ left_ok v s.
  Proof.
    intro E. assert (H := wp_run _ _ _ _ _ _ (explore_good fuel) E). destruct r as [v|e].
    - split; [apply H|]. intros v' Ev. injection Ev as <-. exact H.
    - split; [exact H|discriminate].
  Qed.

  Lemma run_explore fuel r s : run w I cf fuel = (r, s) -> exists r0 s0, explore w I cf fuel = (r0, s0) /\
    ((r0 = r /\ s = s0 /\ r <> Ok Feasible) \/
     (r0 = Ok Feasible /\ a_vUB s = a_vUB s0 /\ a_xUB s = a_xUB s0 /\ a_vLB s = a_vUB s0 /\
      (r = Err KeyboardInterrupt \/ (r = Ok Feasible /\ a_xLB s = a_xUB s0)))).
  Proof.
    unfold run, explore, solve, mbind. destruct (construct w I cf (ast0 I)) as [[b|e] s1].
    2:{ intro E. injection E as <- <-. do 2 eexists. split; [reflexivity|]. left. repeat split; discriminate. }
    destruct (prologue w I cf b s1) as [[v|e] s2].
    2:{ intro E. injection E as <- <-. do 2 eexists. split; [reflexivity|]. left. repeat split; discriminate. }
    destruct ((match v with Continue => main_loop w I cf fuel | _ => mret v end) s2) as [[v'|e] s3] eqn:EL.
    2:{ intro E. injection E as <- <-. do 2 eexists. split; [reflexivity|]. left. repeat split; discriminate. }
    intro E. do 2 eexists. split; [reflexivity|]. destruct v'; try (injection E as <- <-; left; repeat split; discriminate).
    right. split; [reflexivity|]. revert E. cbn [epilogue].
    change (epilogue w Feasible s3 = (r, s) -> a_vUB s = a_vUB s3 /\ a_xUB s = a_xUB s3 /\ a_vLB s = a_vUB s3 /\
      (r = Err KeyboardInterrupt \/ (r = Ok Feasible /\ a_xLB s = a_xUB s3))).
    intro E. set (W := wp (fun e s => e = KeyboardInterrupt /\ a_vUB s = a_vUB s3 /\ a_xUB s = a_xUB s3 /\ a_vLB s = a_vUB s3) (epilogue w Feasible)
      (fun v s => v = Feasible /\ a_vUB s = a_vUB s3 /\ a_xUB s = a_xUB s3 /\ a_vLB s = a_vUB s3 /\ a_xLB s = a_xUB s3) s3).
    assert (HWp : W).
    { unfold W, epilogue. apply wp_bind, wp_put; intros _; [repeat split; reflexivity|]. apply wp_bind, wp_put; intros _; [repeat split; reflexivity|].
      apply wp_ret. repeat split; reflexivity. }
    assert (H := wp_run _ _ _ _ _ _ HWp E). destruct r as [v'|e].
    - destruct H as (-> & H1 & H2 & H3 & H4). auto 8.
    - destruct H as (-> & H1 & H2 & H3). auto 8.
  Qed.

  Lemma bracket fuel r s : explore w I cf fuel = (r, s) -> lower_ok I 0 (a_vLB s) /\ upper_gap I eta (a_vUB s) (a_vLB s).
  Proof. intro E. apply explore_out in E as [[B1 B2 _ _ _ _] _]. split; assumption. Qed.
  Lemma bracket_run fuel r s : run w I cf fuel = (r, s) -> lower_ok I delta (a_vLB s) /\
    exists l, (l = a_vLB s \/ (a_vLB s = a_vUB s /\ (r = Ok Feasible \/ r = Err KeyboardInterrupt))) /\ lower_ok I 0 l /\ upper_gap I eta (a_vUB s) l.
  Proof.
    intro E. assert (D0 := sg_delta _ _ _ _ _ HS). apply run_explore in E as (r0 & s0 & E & [(-> & -> & NF)|(-> & U & X & L & RR)]).
    - apply bracket in E as [B1 B2]. split; [|exists (a_vLB s0); auto]. destruct B1 as [B1|(v & x & B1 & B1' & B1'')]; [now left|right].
      exists v, x. split; [exact B1|]. split; [exact B1'|lra].
    - assert (B := bracket _ _ _ E). apply explore_out in E as [_ H]. destruct (H _ eq_refl) as [_ [EX _]].
      destruct (EX eq_refl) as (x & u & vb & X1 & X2 & X3 & X4). split.
      + right. exists u, x. split; [congruence|]. split; [exact X1|]. destruct X4 as [[-> _]|X4]; lra.
      + exists (a_vLB s0). split; [right; split; [congruence|tauto]|]. rewrite U. exact B.
  Qed.
  Lemma gap_optimal fuel s : (0 <= c_gap cf)%Q -> run w I cf fuel = (Ok GapReached, s) ->
    exists x l u, a_xLB s = Some x /\ a_vLB s = Fin l /\ a_vUB s = Fin u /\ cc_feasible I tol6 x /\ (0 < l)%Q /\ (l <= obj I x)%Q /\
      (u <= l * (1 + c_gap cf))%Q /\ forall y, cc_feasible I 0 y -> (obj I y <= (1 + eta) * (l * (1 + c_gap cf)))%Q.
  Proof.
    intros G0 E. apply run_explore in E as (r0 & s0 & E & [(-> & -> & NF)|(-> & U & X & L & [EI|[EI XL]])]); try discriminate.
    apply explore_out in E as [[B1 B2 B3 B4 B5 B6] H]. destruct (H _ eq_refl) as [[_ IN] [_ GX]]. destruct (GX eq_refl) as (g & EG & LG).
    destruct B3 as [B3|(l & EL & L0)]; rewrite ?B3, ?EL in *; cbn [compute_gap] in EG; [injection EG as <-; discriminate|].
    destruct (a_vUB s0) as [|u|] eqn:EU; [discriminate| |injection EG as <-; discriminate].
    apply Qle_bool_iff in B4. destruct (Qeq_bool l 0) eqn:EQ.
    { destruct (a_npU s0 || a_npL s0); [|discriminate]. injection EG as <-. destruct (Qeq_bool u 0) eqn:E0; [discriminate|].
      destruct (Qlt_bool 0 u) eqn:E1; [discriminate|]. exfalso. unfold Qlt_bool in E1. apply negb_false_iff, Qle_bool_iff in E1.
      apply Qeq_bool_neq in E0. lra. }
    apply Qeq_bool_neq in EQ. assert (LP : (0 < l)%Q) by lra. injection EG as <-. cbn in LG. apply Qle_bool_iff in LG.
    assert (UL : (u <= l * (1 + c_gap cf))%Q).
    { apply (Qmult_le_r _ _ l LP) in LG. setoid_replace ((u - l) / l * l)%Q with (u - l)%Q in LG by (field; lra). lra. }
    assert (P0 : (0 <= l * c_gap cf)%Q) by (apply Qmult_le_0_compat; lra).
    destruct IN as [IN|(l' & x & I1 & I2 & I3 & I4)]; [congruence|]. injection (eq_trans (eq_sym EL) I1) as <-.
    exists x, l, u. repeat split; try assumption; try apply I3.
    assert (LM := lam1).
    assert (SC : forall y b, (obj I y / (1 + eta) <= b)%Q -> (b <= l * (1 + c_gap cf))%Q -> (obj I y <= (1 + eta) * (l * (1 + c_gap cf)))%Q).
    { intros y b A B. assert (A' : (obj I y / (1 + eta) <= l * (1 + c_gap cf))%Q) by lra.
      apply (Qmult_le_r _ _ (1 + eta)) in A'; [|lra]. setoid_replace (obj I y / (1 + eta) * (1 + eta))%Q with (obj I y) in A' by (field; lra).
      rewrite Qmult_comm in A'. exact A'. }
    intros y Fy. destruct (B1 y Fy) as [A|A]; apply Qle_bool_iff in A; [exact (SC y u A UL)|]. apply (SC y l A). lra.
  Qed.
End Gap.
