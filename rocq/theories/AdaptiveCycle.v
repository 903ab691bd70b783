(** Merging may keep the run away from the optimum for ever (C60). *)
From Verif Require Import Base BaseFacts Spec Instance InstanceFacts OptModels OptFacts PartitionFacts Initial InitialFacts Bounds BoundsFacts
  Refine RefineFacts RefineSum CostRefine CostRefineFacts Merge MergeFacts Violations ViolTable BigM BigMFacts2 SongFacts Adaptive AdaptiveSpec AdaptiveWp AdaptiveStruct AdaptiveStart
  AdaptiveBounds NearSpec AdaptiveEnd.

Lemma count_not_all {A} (f : A -> bool) p a : In a p -> f a = false -> count f p + 1 <= length p.
Proof.
  induction p as [|b p IH]; [contradiction|]. intros [->|H] E; rewrite count_cons; cbn [length].
  - rewrite E. assert (L := count_le f p). lia.
  - specialize (IH H E). destruct (f b); lia.
Qed.
Section Cycle.
  Variables (w : world) (I : inst) (cf : cfg).
  Hypothesis HO : oracles_ok w I.
  Hypothesis HSo : sort_spec (w_sort w).
  Hypothesis HW : wf_inst I.
  Hypothesis HP : packing I.
  Hypothesis HEps : eps_ok I.
  Hypothesis HE1 : (i_eps I < 1)%Q.
  Hypothesis HS : solver_ok w I 0 0.
  Hypothesis HC : calm w cf.
  Hypothesis HOp : options_ok w I cf.
  Hypothesis HT : tight I.
  Hypothesis HB : i_cont I = false.
  Hypothesis HN : 0 < i_n I.
  Variable V : Q.
  Hypothesis HTr : trap I V (c_gap cf).
  Hypothesis HM : c_merger cf = true.
  Hypothesis HG : (0 <= c_gap cf)%Q.
  Local Notation head_ok := (head_ok w I 0 0).
  Local Notation state_ok := (state_ok w I).
  Local Notation any := (fun (_ : exn) (_ : ast) => True).

  Definition above (s : ast) : Prop := ext_leb (Fin V) (a_vUB s) = true.
  Lemma eps_0 : (0 <= i_eps I)%Q. Proof. apply HEps. Qed.

  Lemma first_above s r : state_ok s -> a_nb s = min_size I -> first_iteration_bound (a_costs s) (a_sols s) = Ok r ->
    in_dom I (fst (fst (fst r))) /\ (V <= obj I (fst (fst (fst r))))%Q /\ (V <= snd r)%Q.
  Proof.
    intros OK EN E. assert (UA := first_good w I 0 0 HP HEps HS s r OK EN E). destruct r as [[[x z] vo] vb]. cbn [fst snd] in *.
    destruct UA as (D & EO & E1 & E2 & _). split; [exact D|]. destruct OK as [[BD _] [B1 B2 B3 B4 (B5 & B5' & B5'') B6]].
    rewrite min_size_tolerated in EN by apply eps_0.
    destruct (first_iteration I 0 (a_part s) (a_costs s) (a_sols s) x z vo vb eps_0) as (F1 & F2 & F3 & F4 & _); try assumption; try lia.
    - intros c Hc. destruct (answered_facts _ _ _ _ HP HS _ _ _ (B5'' c Hc)) as (_ & A2 & A3 & _). split; [exact A2|]. now symmetry.
    - intros c y Hc. apply (so_eval _ _ _ _ HS _ _ _ (B5'' c Hc)).
    - destruct (tr_part _ _ _ HTr (a_part s) B1 ltac:(lia)) as (S & y & HIn & [Y1 Y2] & HV).
      assert (PF : part_feasible I (a_part s) 0 y).
      { split; [exact Y1|]. apply tolerated_le; [apply eps_0|].
        assert (L := count_not_all (fun S => negb (subset_satb I 0 y S)) (a_part s) S HIn).
        cbv beta in L. rewrite (proj2 (subset_satb_iff I 0 y S) Y2) in L. specialize (L eq_refl). unfold nunsat. lia. }
      apply F4 in PF. lra.
  Qed.

  Lemma upper_above s : state_ok s -> a_nb s = min_size I -> a_start s = w_clock w 0 -> above s ->
    wp any (upper_bound_step w I cf) (fun r s' => above s' /\ forall x, fst r = Some x -> in_dom I x /\ (V <= obj I x)%Q) s.
  Proof.
    intros OK EN ST AB. unfold upper_bound_step. apply wp_bind, wp_get. rewrite EN, Nat.eqb_refl.
    apply wp_bind, wp_lift; [|auto]. intros [[[x z] vo] vb] ER. apply first_above in ER as (D & VX & VB); try assumption. cbn [fst snd] in *.
    apply wp_bind. apply (run_avail w cf HC); [exact ST|]. intros tm ET _. rewrite ET. destruct (check_feasibility (w_norm w) I x) as [ok f].
    assert (A0 : above (bump s)) by exact AB. revert A0. generalize (bump s). clear s OK EN ST AB ET tm. intros s A0.
    eapply wp_bind_mono with (P := fun _ => above); [apply wp_put; auto|]. clear s A0. intros _ s A0.
    eapply wp_bind_mono with (P := fun _ => above); [apply wp_put; auto|]. clear s A0. intros _ s A0. apply wp_bind, wp_get.
    eapply wp_bind_mono with (P := fun _ => above).
    { destruct (ext_leb (Fin vb) (ext_add (a_vUB s) (1 # 100000000))); [|apply wp_ret, A0].
      eapply wp_bind_mono with (P := fun _ _ => True).
      - destruct (ext_leb (Fin vo) (ext_add (a_vUB s) (1 # 100000000))); [apply wp_put; auto|apply wp_ret; auto].
      - intros _ s1 _. apply wp_put; [auto|]. intros _. unfold above. cbn. now apply Qle_bool_iff. }
    clear s A0. intros _ s A0. eapply wp_bind_mono with (P := fun _ => above); [apply wp_put; auto|]. clear s A0. intros _ s A0.
    eapply wp_bind_mono with (P := fun _ => above).
    { eapply wp_mono; [apply (store_pres w above); [| |exact A0]|auto|auto]; intros s1 v1 H1; exact H1. }
    intros _ s1 A1. apply wp_ret. split; [exact A1|]. cbn [fst]. intros x' E. injection E as <-. auto.
  Qed.

  Lemma pres_any {A} (P : ast -> Prop) (m : M A) s : pres P m -> P s -> wp any m (fun _ => P) s.
  Proof. intros H H0. eapply wp_mono; [apply H, H0|auto|auto]. Qed.

  Lemma lower_above x : pres above (lower_bound_step w I cf x).
  Proof.
    unfold lower_bound_step. apply pres_bind; [apply pres_deterministic; auto|]. intros [y v]. apply pres_get. intro s0.
    apply pres_bind; [apply pres_if; [|apply pres_ret]; repeat (pres_step; auto)|]. intros _. unfold store_info. repeat (pres_step; auto).
  Qed.

  Lemma bound_above s : head_ok s -> length (a_part s) = tolerated I + 1 -> above s ->
    wp any (bound_phase w I cf) (fun r s' => above s' /\ forall y, r = inr (Some y) -> in_dom I y /\ (V <= obj I y)%Q) s.
  Proof.
    intros [OK FE ZF ST _ _] LN AB. rewrite bound_phase_eq. eapply wp_bind_mono with (P := fun _ s' => s' = s).
    { unfold gap_now. apply wp_bind, wp_get, wp_lift; [reflexivity|auto]. }
    intros _ s' ->. apply wp_bind.
    set (f := fun s : ast => (a_start s, a_nb s, a_vUB s)).
    eapply wp_mono; [eapply wp_conj; [exact (big_M_good w I cf 0 0 HO HSo HW HP HEps HS s OK)|
      exact (pres_big_M w I cf (fun s' => f s' = f s) ltac:(auto) ltac:(auto) s eq_refl)]| |auto].
    cbv beta. intros _ s1 [[OK1 _] F1]. unfold f in F1. injection F1 as F1 F2 F3. apply wp_bind.
    eapply wp_mono; [apply upper_above; [exact OK1| | |]| |auto].
    - rewrite F2, (sh_nb _ _ _ (proj2 OK)), LN. symmetry. apply min_size_tolerated, eps_0.
    - congruence.
    - unfold above. now rewrite F3.
    - clear s OK FE ZF ST LN AB s1 OK1 F1 F2 F3 f. cbv beta. intros [x ok] s [A X]. cbn [fst] in X. unfold after_upper.
      destruct ok; [apply wp_ret; split; [exact A|discriminate]|].
      apply wp_bind, wp_available. match goal with |- wp _ (if ?b then _ else _) _ _ => destruct b end; [apply wp_ret; split; [exact A|discriminate]|].
      eapply wp_bind_mono; [apply (pres_any above); [apply lower_above|exact A]|]. clear s A. intros g s A.
      match goal with |- wp _ (if ?b then _ else _) _ _ => destruct b end; [apply wp_ret; split; [exact A|discriminate]|].
      apply wp_bind, wp_available. match goal with |- wp _ (if ?b then _ else _) _ _ => destruct b end; apply wp_ret; (split; [exact A|]); [discriminate|].
      intros y E. injection E as ->. auto.
  Qed.

  (** The subsets created by a split contain a scenario that the point violates: they cost at most V. *)
  Lemma new_below y p l nc : in_dom I y -> (V <= obj I y)%Q -> valid_partition (i_k I) p -> Forall (fun c => c < length p) l ->
    Forall (fun c => existsb (violated I y) (nth c p []) = true) l ->
    Forall2 (fun c v => exists x, answered w I (nth c p []) v x) l nc -> Forall (fun v => (v <= V)%Q) nc.
  Proof.
    intros D VY VP FL FB F. induction F as [|c v l nc [x A] F IH]; [constructor|]. inversion FL; subst. inversion FB as [|? ? B1 B2]; subst.
    constructor; [|auto]. apply existsb_exists in B1 as (s & Hs & B1). destruct (answered_facts _ _ _ _ HP HS _ _ _ A) as (D' & [_ F2] & EV & _).
    assert (SK : s < i_k I) by (assert (W := vp_lt _ _ VP); rewrite Forall_forall in W; destruct (W (nth c p []) ltac:(now apply nth_In)) as [_ W2]; rewrite Forall_forall in W2; now apply W2).
    assert (X : (obj I x <= V)%Q).
    { apply (tr_near _ _ _ HTr y s D VY SK B1). split; [exact D'|]. intros t [<-|[]]. now apply F2. }
    lra.
  Qed.

  Lemma iteration_above s : head_ok s -> length (a_part s) = tolerated I + 1 -> above s ->
    wp any (iteration w I cf) (fun v s' => above s' /\ (v = Continue -> length (a_part s') = tolerated I + 1)) s.
  Proof.
    intros H LN AB. rewrite iteration_eq. apply wp_bind.
    eapply wp_mono; [eapply wp_conj; [exact (bound_above s H LN AB)|eapply wp_conj;
      [exact (bound_safe w I cf 0 0 HO HSo HW HP HEps HS (within_zero I) (bin_tau I 0 HB) HC HOp (tight_near I HT) (bin_exact w I HB) HN s (hd_state _ _ _ _ _ H) (hd_z _ _ _ _ _ H) (hd_start _ _ _ _ _ H) (hd_j _ _ _ _ _ H) (hd_x _ _ _ _ _ H))
      |exact (bound_inv w I cf s (proj2 (hd_state _ _ _ _ _ H)) (hd_fe _ _ _ _ _ H))]]| |auto].
    cbv beta. intros [v|x] s1 ((A & X) & (_ & _ & _ & _ & _ & R) & SH1 & P1 & NC & _).
    { apply wp_ret. split; [exact A|]. intros ->. now contradiction NC. }
    destruct R as (y & -> & HU & F1). destruct (X y eq_refl) as [D VY]. clear X NC. unfold after_bounds. rewrite <- P1 in LN. clear P1 HU AB H s.
    rename s1 into s. rename SH1 into SH. rename F1 into FE.
    set (f := fun s : ast => a_vUB s).
    assert (IM : forall (c : ast) cands, pres (fun s' => f s' = f c) (improve_vlb w I cands)).
    { intros c cands. apply pres_improve0; auto. }
    apply wp_bind.
    eapply wp_mono; [eapply wp_conj; [exact (split_inv w I cf HO HW eps_0 y s SH FE)|eapply wp_conj; [exact (split_new_costs w I cf s)|
      exact (pres_eq f _ s (pres_split0 w I cf (fun s' => f s' = f s) ltac:(auto) ltac:(auto) ltac:(auto) ltac:(auto) ltac:(auto) ltac:(auto) ltac:(auto) ltac:(auto) (IM s)))]]| |auto].
    cbv beta. intros [R nc] s2 (SP & NEW & E2). cbn [fst snd] in SP, NEW. apply wp_bind.
    eapply wp_mono; [eapply wp_conj; [exact (merge_inv w I cf HW eps_0 y (Some y) s s2 R nc SH SP)|
      exact (pres_eq f _ s2 (pres_merge0 w I cf (fun s' => f s' = f s2) ltac:(auto) (Some y) R nc ltac:(auto) ltac:(auto) ltac:(auto) ltac:(auto) ltac:(auto) ltac:(auto) ltac:(auto) (IM s2)))]| |auto].
    cbv beta. intros [] s3 (MP & E3). unfold f in E2, E3.
    assert (MG : a_merged s3 = true).
    { apply (mp_when _ _ _ _ _ _ _ _ _ MP). split; [exact HM|].
      destruct (sp_ref _ _ _ _ _ _ _ SP) as ((V1 & _) & (_ & _ & D3 & _) & _ & _ & _ & BD).
      assert (NB := new_below y (rf_part R) (rf_new R) nc D VY V1 D3 BD NEW).
      eapply Forall_impl; [|exact NB]. cbv beta. intros v Hv. rewrite E2. eapply ext_leb_trans; [|exact A]. cbn. now apply Qle_bool_iff. }
    assert (L3 := mp_size _ _ _ _ _ _ _ _ _ MP MG). assert (A3 : above s3) by (unfold above; rewrite E3, E2; exact A).
    rewrite LN in L3. clear -L3 A3. set (P := fun s : ast => above s /\ length (a_part s) = tolerated I + 1).
    assert (PP : pres P (next_iteration w cf)) by (unfold next_iteration; repeat (pres_step; auto)).
    eapply wp_mono; [apply PP; exact (conj A3 L3)| |auto]. intros v s4 [H1 H2]. split; [exact H1|auto].
  Qed.

  Lemma loop_above fuel : forall s, head_ok s -> lbpos s -> length (a_part s) = tolerated I + 1 -> above s ->
    wp (fun e _ => e = NonTermination) (main_loop w I cf fuel) (fun v s' => (v = Feasible \/ v = GapReached) /\ above s') s.
  Proof.
    induction fuel as [|n IH]; intros s H LP LN AB; cbn [main_loop]; [reflexivity|]. apply wp_bind.
    eapply wp_mono; [eapply wp_conj; [exact (iteration_safe w I cf 0 0 HO HSo HW HP HEps HS (within_zero I) (bin_tau I 0 HB) HC HOp (tight_near I HT) (bin_exact w I HB) HN s H)|
      eapply wp_conj; [exact (iteration_pos w I cf 0 0 HO HSo HW HP HEps HS HC (bin_exact w I HB) HN (tr_pos _ _ _ HTr) s H LP)|exact (iteration_above s H LN AB)]]| |].
    - cbv beta. intros v s' [[[-> _]|[[-> _]|(-> & H' & _)]] (LP' & AB' & LN')]; [apply wp_ret; auto|apply wp_ret; auto|]. auto.
    - cbv beta. intros e s' [Z [L _]]. apply lbpos_zde in Z; [|exact L]. now apply bin_close in Z.
  Qed.

  Lemma setup_above s : a_vUB s = PInf -> wp any (setup_initial_partition w I cf) (fun _ => above) s.
  Proof.
    intro EU. unfold setup_initial_partition. set (K := fun (s : ast) => a_vUB s = PInf).
    assert (A : forall s, a_vUB s = PInf -> above s) by (intros s1 E1; unfold above; rewrite E1; reflexivity).
    eapply wp_bind_mono with (P := fun _ => K); [apply wp_put; [auto|intros _; exact EU]|]. clear s EU. intros _ s EU. apply wp_bind, wp_lift; [|auto]. intros _ _.
    eapply wp_bind_mono with (P := fun costs s' => a_vUB s' = PInf /\ (c_init cf = InitCost -> length costs = i_k I /\
      forall t, t < i_k I -> exists x, answered w I [t] (nth t costs 0%Q) x)).
    { destruct (c_init cf); try (apply wp_ret; split; [assumption|discriminate]).
      unfold all_scenario_costs. apply wp_bind. apply (wp_mmap_map _ (subset_cost w I) (fun s => [s])).
      match goal with |- wp _ ?m ?q ?s => apply wp_mono with (E := fun e _ => external w I e) (Q := q) end; [apply (ext_mmap_cost w I)|auto|auto]. intros r t F. apply wp_ret. split; [exact EU|]. intros _. split.
      - apply Forall2_len in F. rewrite map_length, seq_length in F. now rewrite map_length.
      - apply (Forall2_nth_singletons w I (i_k I) 0 r F). }
    clear s EU. intros costs s [EU HK]. apply wp_bind, wp_get. apply wp_bind, wp_lift; [|auto]. intros p _.
    eapply wp_bind_mono with (P := fun _ => K); [apply wp_put; [auto|intros _; exact EU]|]. clear s EU. intros _ s EU.
    eapply wp_bind_mono with (P := fun _ => K); [apply wp_put; [auto|intros _; exact EU]|]. clear s EU. intros _ s EU. apply wp_bind, wp_lift; [|auto]. intros W _.
    eapply wp_bind_mono with (P := fun _ => K); [apply wp_put; [auto|intros _; exact EU]|]. clear s EU. intros _ s EU.
    destruct (c_init cf); try (apply wp_ret; now apply A). destruct (HK eq_refl) as [LC HC'].
    apply wp_bind, wp_lift; [|auto]. intros [[i v]|] EA; [|apply wp_ret; now apply A].
    apply wp_bind, wp_put; [auto|]. intros _. apply wp_ret. unfold above. cbn. apply Qle_bool_iff.
    destruct HO as (_ & HA & _).
    destruct (ahmed_some (w_argsort w) costs (uniform (i_k I)) (i_eps I) HA ltac:(rewrite uniform_length; exact LC) i v EA) as (E1 & E2 & _).
    rewrite uniform_length in E2. destruct (HC' i E2) as (x & AN). destruct (tr_single _ _ _ HTr i E2) as (y & Y1 & Y2).
    assert (Z := so_eval _ _ _ _ HS _ _ _ AN y Y1). rewrite E1 in Z. lra.
  Qed.
  Lemma construct_above : wp any (construct w I cf) (fun _ => above) (ast0 I).
  Proof.
    unfold construct. set (K := fun (s : ast) => a_vUB s = PInf).
    apply wp_bind, wp_clock. eapply wp_bind_mono with (P := fun _ => K); [apply wp_put; intros; [auto|reflexivity]|].
    intros _ s EU. apply wp_bind, wp_lift; [|auto]. intros _ _. eapply wp_bind_mono; [apply setup_above, EU|]. cbv beta. clear s EU. intros b s A.
    apply wp_bind, wp_get. eapply wp_bind_mono with (P := fun _ => above); [apply wp_put; auto|]. intros _ s1 A1. apply wp_ret, A1.
  Qed.

  Lemma run_stuck fuel : exists s, run w I cf fuel = (Err NonTermination, s).
  Proof.
    assert (W : wp (fun e _ => e = NonTermination) (let! b := construct w I cf in let! v := prologue w I cf b in
      (let! v := match v with Continue => main_loop w I cf fuel | _ => mret v end in epilogue w v))%mon (fun v s' => (v = Feasible \/ v = GapReached) /\ above s') (ast0 I)).
    { assert (W1 := start_pos w I cf 0 0 HO HW HP HEps HE1 HS HC HOp (bin_exact w I HB) HN never (fun v => fun s => (Ok v, s))
        (fun v s => v = Continue /\ head_ok s /\ lbpos s /\ length (a_part s) = tolerated I + 1)
        ltac:(intros s H1 H2 H3 H4; exact (conj eq_refl (conj H1 (conj H2 H4))))).
      assert (W2 : wp any (let! b := construct w I cf in let! v := prologue w I cf b in (fun s => (Ok v, s)))%mon (fun _ => above) (ast0 I)).
      { eapply wp_bind_mono; [exact construct_above|]. intros b s A.
        assert (PP : pres above (let! v := prologue w I cf b in mret v)%mon).
        { apply pres_bind; [apply prologue_frame; auto; intro; apply pres_improve0; auto|]. intro v. apply pres_ret. }
        eapply wp_mono; [apply PP, A|auto|auto]. }
      assert (W := wp_conj _ _ _ _ _ _ W1 W2). clear W1 W2. unfold wp, mbind in W |- *. destruct (construct w I cf (ast0 I)) as [[b|e] s1]; [|destruct W as [[] _]].
      destruct (prologue w I cf b s1) as [[v|e] s2]; [|destruct W as [[] _]]. destruct W as ((-> & H1 & H2 & H3) & AB).
      assert (L := loop_above fuel s2 H1 H2 H3 AB). unfold wp in L. destruct (main_loop w I cf fuel s2) as [[v|e] s3]; [|exact L].
      destruct L as [LV LA]. assert (PE : pres above (epilogue w v)) by (unfold epilogue; destruct v; repeat (pres_step; auto)).
      assert (EV : wp any (epilogue w v) (fun v' _ => v' = v) s3).
      { destruct v; try (apply wp_ret; reflexivity). unfold epilogue. do 2 (eapply wp_bind_mono with (P := fun _ _ => True); [apply wp_put; auto|]; intros _ ? _). apply wp_ret. reflexivity. }
      assert (NE : wp never (epilogue w v) (fun _ _ => True) s3) by (apply (epilogue_safe w cf HC); auto).
      assert (Z := wp_conj _ _ _ _ _ _ (PE s3 LA) (wp_conj _ _ _ _ _ _ EV NE)). unfold wp in Z.
      destruct (epilogue w v s3) as [[v'|e] s4]; [|destruct Z as (_ & _ & [])]. destruct Z as (Z1 & -> & _). auto. }
    destruct (run w I cf fuel) as [r s] eqn:ER. assert (X := wp_run _ _ _ _ _ _ W ER). destruct r as [v|e]; cbv beta iota in X; [|exists s; now rewrite X].
    exfalso. destruct X as [[->| ->] AB].
    - destruct (feasible_value w I cf 0 0 HO HSo HW HP HEps HS fuel s HT ER) as (x & v & E1 & _ & F & _ & L). unfold above in AB. rewrite E1 in AB. cbn in AB. apply Qle_bool_iff in AB.
      assert (B := tr_below _ _ _ HTr x F). assert (N := obj_nonneg I x HP (proj1 F)).
      assert (0 <= obj I x * c_gap cf)%Q by (apply Qmult_le_0_compat; assumption). lra.
    - destruct (gap_optimal w I cf 0 0 HO HSo HW HP HEps HS fuel s HG ER) as (x & l & u & _ & _ & E1 & F & L0 & L1 & L2 & _). unfold above in AB. rewrite E1 in AB. cbn in AB. apply Qle_bool_iff in AB.
      assert (B := tr_below _ _ _ HTr x (HT x F)).
      assert (l * (1 + c_gap cf) <= obj I x * (1 + c_gap cf))%Q by (apply Qmult_le_compat_r; lra). lra.
  Qed.
End Cycle.
