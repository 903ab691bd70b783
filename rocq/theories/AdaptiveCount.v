(** The scenarios of the lower-bound problem in a run: feasibility counter and rescaled violations. *)
From Verif Require Import Base BaseFacts Spec Instance InstanceFacts OptModels Initial Bounds Refine CostRefine Merge
  Violations BigM InitialFacts BoundsFacts Adaptive AdaptiveSpec AdaptiveWp.

Lemma lb_removes_frame I l : forall lb lb', lb_removes I lb l = Ok lb' -> lb_counter lb' = lb_counter lb.
Proof.
  induction l as [|s l IH]; intros lb lb' E; cbn [lb_removes] in E; [congruence|].
  unfold lb_remove1 in E. destruct (lookup s (lb_dict lb)); cbn [rbind] in E; [|discriminate]. apply IH in E. exact E.
Qed.
Lemma lb_adds_frame I l : forall lb, lb_counter (fold_left (lb_add1 I) l lb) = lb_counter lb.
Proof. induction l as [|s l IH]; intro lb; cbn [fold_left]; [reflexivity|]. rewrite IH. reflexivity. Qed.
Lemma lb_prepare_frame I lb v scen lb' : lb_prepare I lb v scen = Ok lb' -> lb_counter lb' = lb_counter lb /\ lb_scen lb' = scen.
Proof.
  unfold lb_prepare. intro E. destruct (lb_removes I lb _) as [lb1|e] eqn:E1; cbn [rbind] in E; [|discriminate].
  apply lb_removes_frame in E1. destruct (ext_leb _ v); injection E as <-; cbn [lb_counter lb_scen]; rewrite lb_adds_frame; auto.
Qed.

(** Value of the rescaled index. *)
Lemma lb_violation_spec norm I x s i v : (forall r, 0 <= norm r)%Q -> i < i_m I -> scaled_viol norm I x s i v -> (lb_violation norm I x s i == v)%Q.
Proof.
  intros HN Hi (_ & V1 & V2). unfold lb_violation. set (d := (dot (row I s i) x - rhs I s i)%Q) in *.
  assert (M : (Qmax d 0 == d)%Q) by (apply Q.max_l; lra).
  assert (L : Qlt_bool (Qmax d 0) (1 # 1000) = false).
  { destruct (Qlt_bool _ _) eqn:E; [|reflexivity]. apply Qlt_bool_iff in E. exfalso. lra. }
  rewrite L. destruct (Qeq_bool (norm (row I s i)) 0) eqn:E0.
  - apply Qeq_bool_iff in E0. destruct V2 as [[_ V2]|[V2 _]]; [rewrite V2; exact M|contradiction].
  - apply Qeq_bool_neq in E0. destruct V2 as [[V2 _]|[_ V2]]; [contradiction|]. rewrite M, <- V2. now apply Qdiv_mult_l.
Qed.
Lemma lb_violation_cases norm I x s i : (forall r, 0 <= norm r)%Q -> i < i_m I ->
  (lb_violation norm I x s i == 0)%Q \/ scaled_viol norm I x s i (lb_violation norm I x s i).
Proof.
  intros HN Hi. unfold lb_violation. set (d := (dot (row I s i) x - rhs I s i)%Q).
  destruct (Qlt_bool (Qmax d 0) (1 # 1000)) eqn:L.
  - left. destruct (Qeq_bool _ 0); [reflexivity|]. unfold Qdiv. ring.
  - right. assert (L' : (1 # 1000 <= Qmax d 0)%Q).
    { apply Qnot_lt_le. intro C. apply Qlt_bool_iff in C. congruence. }
    assert (D : (1 # 1000 <= d)%Q). { destruct (Q.max_spec d 0) as [[A B]|[A B]]; lra. }
    assert (M : (Qmax d 0 == d)%Q) by (apply Q.max_l; lra).
    split; [exact Hi|]. fold d. split; [exact D|]. destruct (Qeq_bool (norm (row I s i)) 0) eqn:E0.
    + left. apply Qeq_bool_iff in E0. auto.
    + right. apply Qeq_bool_neq in E0. split; [exact E0|]. rewrite M. field. exact E0.
Qed.

Lemma fold_max_spec (f : nat -> Q) l : forall a, (0 <= a)%Q ->
  let m := fold_left (fun acc i => Qmax acc (f i)) l a in
  (a <= m)%Q /\ (forall i, In i l -> (f i <= m)%Q) /\ ((m == a)%Q \/ exists i, In i l /\ (m == f i)%Q).
Proof.
  induction l as [|j l IH]; intros a Ha; cbn [fold_left].
  - split; [apply Qle_refl|]. split; [intros i []|left; reflexivity].
  - assert (Hm := Q.le_max_l a (f j)). assert (Hr := Q.le_max_r a (f j)).
    destruct (IH (Qmax a (f j))) as (A1 & A2 & A3); [lra|]. cbn zeta in *. split; [lra|]. split.
    + intros i [->|Hi]; [lra|now apply A2].
    + destruct A3 as [A3|(i & Hi & A3)]; [|right; exists i; split; [now right|exact A3]].
      destruct (Q.max_spec a (f j)) as [[_ B]|[_ B]]; [right; exists j; split; [now left|lra]|left; lra].
Qed.

Lemma violation_nonneg norm I x s i : (forall r, 0 <= norm r)%Q -> (0 <= lb_violation norm I x s i)%Q.
Proof.
  intro HN. unfold lb_violation. set (d := (dot (row I s i) x - rhs I s i)%Q). assert (H := Q.le_max_r d 0).
  assert (V : (0 <= if Qlt_bool (Qmax d 0) (1 # 1000) then 0 else Qmax d 0)%Q) by (destruct (Qlt_bool _ _); lra).
  destruct (Qeq_bool _ 0); [exact V|]. unfold Qdiv. apply Qmult_le_0_compat; [exact V|]. apply Qinv_le_0_compat, HN.
Qed.

Lemma violation_index_nth norm I x s : s < i_k I ->
  nth s (violation_index norm I x) 0%Q = fold_left (fun acc i => Qmax acc (lb_violation norm I x s i)) (seq 0 (i_m I)) 0%Q.
Proof.
  intro Hs. unfold violation_index.
  set (g := fun s => fold_left (fun acc i => Qmax acc (lb_violation norm I x s i)) (seq 0 (i_m I)) 0%Q).
  rewrite (nth_indep _ 0%Q (g 0)) by now rewrite map_length, seq_length. rewrite (map_nth g), seq_nth by exact Hs. reflexivity.
Qed.

(** A scenario before another one in the order of the rescaled violations. *)
Lemma violation_index_order norm I x a b : (forall r, 0 <= norm r)%Q -> a < i_k I -> b < i_k I ->
  (nth a (violation_index norm I x) 0 <= nth b (violation_index norm I x) 0)%Q ->
  forall i v, scaled_viol norm I x a i v -> exists j v', scaled_viol norm I x b j v' /\ (v <= v')%Q.
Proof.
  intros HN Ha Hb. rewrite !violation_index_nth by assumption. intros H i v V.
  assert (Hi := proj1 V). assert (EV := lb_violation_spec norm I x a i v HN Hi V).
  destruct (fold_max_spec (lb_violation norm I x a) (seq 0 (i_m I)) 0 (Qle_refl 0)) as (_ & A2 & _).
  destruct (fold_max_spec (lb_violation norm I x b) (seq 0 (i_m I)) 0 (Qle_refl 0)) as (_ & _ & B3).
  assert (A := A2 i (proj2 (in_seq _ _ _) (conj (Nat.le_0_l _) Hi))).
  set (ma := fold_left _ _ _) in *. set (mb := fold_left _ _ _) in *.
  assert (P : (0 < v)%Q).
  { destruct V as (_ & V1 & [[_ V2]|[V2 V3]]); [lra|]. assert (N := HN (row I a i)).
    assert (N' : (0 < norm (row I a i))%Q) by (apply Qle_lteq in N as [N|N]; [exact N|symmetry in N; contradiction]).
    apply Qnot_le_lt. intro C. assert (v * norm (row I a i) <= 0)%Q; [|lra].
    setoid_replace 0%Q with (0 * norm (row I a i))%Q by ring. apply Qmult_le_compat_r; [exact C|apply HN]. }
  destruct B3 as [B3|(j & Hj & B3)]; [exfalso; lra|]. apply in_seq in Hj.
  destruct (lb_violation_cases norm I x b j HN) as [Z|V']; [lia|exfalso; lra|]. exists j, (lb_violation norm I x b j). split; [exact V'|lra].
Qed.

Section Count.
  Variable w : world.
  Variable I : inst.
  Variable cf : cfg.
  Hypothesis HN : forall r, (0 <= w_norm w r)%Q.
  Hypothesis HA : argsort_ok (w_argsort w).
  Hypothesis HK : 0 < i_k I.

  Ltac pt := repeat (pres_step; auto).

  Definition countv (xs : list (list Q)) (c : list Q) : Prop :=
    length c = i_k I /\ forall t, t < i_k I -> (nth t c 0 == Qn (times_ok I xs t))%Q.
  Definition counted (xs : list (list Q)) (s : ast) : Prop := countv xs (lb_counter (a_lb s)).

  Lemma times_cons x xs t : (Qn (times_ok I (x :: xs) t) == Qn (times_ok I xs t) + (if satb I tol6 x t then 1 else 0))%Q.
  Proof.
    unfold times_ok, count. cbn [filter]. destruct (satb I tol6 x t); cbn [length]; [|lra].
    unfold Qn. rewrite Nat2Z.inj_succ. unfold Z.succ. rewrite inject_Z_plus. reflexivity.
  Qed.
  Lemma count_save xs x lb : countv xs (lb_counter lb) ->
    countv (x :: xs) (lb_counter (save_feasible lb (get_feasible_scenarios (snd (check_feasibility (w_norm w) I x))))).
  Proof.
    intros [C1 C2]. rewrite (check_feasibility_feasible (w_norm w) HN). unfold save_feasible. cbn [lb_counter]. split.
    - rewrite map_length, combine_length, map_length, seq_length, C1. lia.
    - intros t Ht. set (g := fun cf : Q * bool => (fst cf + (if snd cf : bool then 1 else 0))%Q).
      rewrite (nth_indep _ 0%Q (g (0%Q, satb I tol6 x 0))) by (rewrite map_length, combine_length, map_length, seq_length, C1; lia).
      rewrite (map_nth g), combine_nth by (now rewrite map_length, seq_length).
      rewrite (map_nth (satb I tol6 x)), seq_nth by exact Ht. unfold g. cbn [fst snd Nat.add]. rewrite times_cons, (C2 t Ht). reflexivity.
  Qed.

  Lemma count_upper xs s : counted xs s ->
    wp (fun _ _ => True) (upper_bound_step w I cf) (fun r s' =>
      (snd r = false /\ expired w cf s') \/ exists x, fst r = Some x /\ counted (x :: xs) s') s.
  Proof.
    intro Hs. unfold upper_bound_step. apply wp_bind, wp_get.
    apply wp_bind, wp_mono with (E := fun _ => counted xs) (Q := fun _ => counted xs); [| |auto].
    { destruct (a_nb s =? min_size I); [apply pres_lift|apply pres_partition_bound]; auto. }
    clear s Hs. intros [[[x z] vo] vb] s Hs. apply wp_bind, wp_available.
    destruct (Qle_bool _ 0) eqn:ET.
    { apply wp_bind, wp_get, wp_ret. left. split; [reflexivity|]. apply Qle_bool_iff in ET. exists (a_t s).
      split; [cbn; lia|]. cbn [a_start bump set_t]. eapply Qle_trans; [apply Q.le_max_l|exact ET]. }
    assert (HC := count_save xs x). destruct (check_feasibility (w_norm w) I x) as [ok f]. cbn [snd] in HC.
    eapply wp_bind_mono with (P := fun _ => counted xs); [apply wp_put; intros _; [exact Logic.I|exact Hs]|]. clear s Hs ET. intros _ s Hs.
    eapply wp_bind_mono with (P := fun _ => counted xs); [apply wp_put; intros _; [exact Logic.I|exact Hs]|]. clear s Hs. intros _ s Hs.
    apply wp_bind, wp_get. eapply wp_bind_mono with (P := fun _ => counted xs).
    - match goal with |- wp _ ?m _ ?s0 => assert (PR : pres (counted xs) m) by pt end.
      eapply wp_mono; [apply PR, Hs|auto|auto].
    - clear s Hs. intros _ s Hs. eapply wp_bind_mono with (P := fun _ => counted (x :: xs)).
      { apply wp_put; intros _; [exact Logic.I|]. apply HC. exact Hs. }
      clear s Hs. intros _ s Hs. eapply wp_bind_mono with (P := fun _ => counted (x :: xs)).
      { assert (PR : pres (counted (x :: xs)) (store_info w)) by (unfold store_info; pt). eapply wp_mono; [apply PR, Hs|auto|auto]. }
      intros _ s' H'. apply wp_ret. right. exists x. split; [reflexivity|exact H'].
  Qed.

  (** The scenarios of the last lower-bound problem. *)
  Local Notation projected := (projection_ok (w_norm w) I (c_proj cf)).

  Lemma sel_mass l : 0 < i_k I -> Forall (fun t => t < i_k I) l ->
    (qsum (map (fun t => nth t (uniform (i_k I)) 0) l) * Qn (i_k I) == Qn (length l))%Q.
  Proof.
    intros Hk HF. rewrite qsum_uniform_sub by exact HF. field. apply Qn_pos in Hk. lra.
  Qed.

  Lemma count_deterministic xs x s : counted xs s ->
    wp (fun _ _ => True) (deterministic_bound w I cf (Some x)) (fun _ s' => counted xs s' /\ projected xs x (lb_scen (a_lb s'))) s.
  Proof.
    intros [C1 C2]. unfold deterministic_bound. apply wp_bind, wp_get.
    apply wp_bind, wp_lift; [|auto]. intros idx EI. apply wp_bind, wp_lift; [|auto]. intros sel ES.
    destruct (selected_scenarios _ _ _ _ idx) as [[sel'|]|e] eqn:EQ; cbn [rbind need] in ES; try discriminate. injection ES as <-.
    assert (LI : length idx = i_k I).
    { destruct (c_proj cf); [|cbn in EI|discriminate]; injection EI as <-; [now rewrite map_length|].
      unfold violation_index. now rewrite map_length, seq_length. }
    destruct (selected_spec (w_argsort w) (uniform (i_k I)) (i_eps I) (i_k I) idx sel' HA (uniform_length _) LI EQ) as (S1 & S2 & S3 & S4 & _ & S6).
    assert (PJ : projected xs x sel').
    { assert (KP := Qn_pos _ HK). split; [exact S3|]. split; [exact S4|]. split.
      { rewrite <- (sel_mass sel' HK S4). apply Qmult_le_compat_r; [exact S1|lra]. }
      split.
      { intros n [N1 N2]. assert (EF : sel' = firstn n sel' ++ skipn n sel') by now rewrite firstn_skipn.
        assert (F : Forall (fun t => t < i_k I) (firstn n sel')) by (rewrite EF in S4; now apply Forall_app in S4).
        assert (LF : length (firstn n sel') = n) by (apply firstn_length_le; lia).
        assert (M := sel_mass _ HK F). rewrite LF in M. rewrite <- M. apply Qmult_lt_r; [exact KP|]. apply (S2 _ _ EF).
        - intro C. rewrite C in LF. cbn in LF. lia.
        - intro C. assert (L := skipn_length n sel'). rewrite C in L. cbn in L. lia. }
      intros a b Ha Hb Hn.
      assert (La : a < i_k I) by (rewrite Forall_forall in S4; now apply S4). specialize (S6 a b Ha Hb Hn).
      destruct (c_proj cf); [| |discriminate].
      - injection EI as <-. change 0%Q with (- 0)%Q in S6. rewrite !(map_nth Qopp) in S6. rewrite (C2 a La), (C2 b Hb) in S6.
        apply Qopp_le_compat in S6. rewrite !Qopp_involutive in S6. unfold Qn in S6. rewrite <- Zle_Qle in S6. lia.
      - cbn in EI. injection EI as <-. now apply violation_index_order. }
    apply wp_bind, wp_lift; [|auto]. intros lb EL. apply lb_prepare_frame in EL as [L1 L2].
    set (P := fun s' : ast => counted xs s' /\ projected xs x (lb_scen (a_lb s'))).
    eapply wp_bind_mono with (P := fun _ => P).
    { apply wp_put; intros _; [exact Logic.I|]. split; [unfold counted|]; cbn [a_lb set_lb bump set_t]; rewrite ?L1, ?L2; [split; assumption|exact PJ]. }
    clear s C1 C2 EI EQ L1. intros _ s Hs.
    match goal with |- wp _ ?m _ _ => assert (PR : pres P m) by pt end. eapply wp_mono; [apply PR, Hs|auto|auto].
  Qed.

  Lemma count_bounds xs s : clock_mono w -> counted xs s ->
    wp (fun _ _ => True) (bound_phase w I cf) (fun r s' => forall y, r = inr y ->
      exists x, y = Some x /\ counted (x :: xs) s' /\ projected (x :: xs) x (lb_scen (a_lb s'))) s.
  Proof.
    intros MC S0. rewrite bound_phase_eq.
    apply wp_bind, wp_mono with (1 := pres_gap _ s S0); [|auto]. intros _ s1 H1.
    apply wp_bind, wp_mono with (E := fun _ => counted xs) (Q := fun _ => counted xs); [apply pres_big_M; auto| |auto].
    intros _ s2 H2. apply wp_bind, wp_mono with (1 := count_upper xs s2 H2); [|auto].
    clear s S0 s1 H1 s2 H2. intros [x ok] s1 H1. unfold after_upper.
    destruct ok; [apply wp_ret; discriminate|].
    apply wp_bind, wp_available. destruct (Qle_bool _ 0) eqn:ET; [apply wp_ret; discriminate|].
    destruct H1 as [[_ (t & T1 & T2)] | (x' & E1 & H1)].
    { exfalso. pose proof (MC _ _ T1). assert (Qle_bool (Qmax (c_limit cf - (w_clock w (a_t s1) - a_start s1)) 0) 0 = true).
      { apply Qle_bool_iff. apply Q.max_lub; lra. } congruence. }
    cbn [fst] in E1. subst x. set (P := fun s' : ast => counted (x' :: xs) s' /\ projected (x' :: xs) x' (lb_scen (a_lb s'))).
    apply wp_bind. apply wp_mono with (E := fun _ _ => True) (Q := fun (_ : gapv) => P); [| |auto].
    - unfold lower_bound_step. eapply wp_bind_mono; [apply count_deterministic; exact H1|].
      intros [y v] s2 H2. fold (P s2) in H2.
      match goal with |- wp _ ?m _ _ => assert (PR : pres P m) by (unfold store_info; pt) end. eapply wp_mono; [apply PR, H2|auto|auto].
    - clear s1 H1 ET. intros g s1 HG. destruct (gap_leb g (c_gap cf)); [apply wp_ret; discriminate|].
      apply wp_bind, wp_available. destruct (Qle_bool _ 0); [apply wp_ret; discriminate|].
      apply wp_ret. intros y E. injection E as <-. exists x'. split; [reflexivity|]. exact HG.
  Qed.

  Lemma count_after r xs s : counted xs s -> wp (fun _ _ => True) (after_bounds w I cf r) (fun _ => counted xs) s.
  Proof.
    intro Hs. assert (PR : pres (counted xs) (after_bounds w I cf r)); [|eapply wp_mono; [apply PR, Hs|auto|auto]].
    assert (PI : forall cands, pres (counted xs) (improve_vlb w I cands)) by (intro; apply pres_improve0; auto).
    unfold after_bounds. destruct r; [apply pres_ret|]. apply pres_bind; [apply pres_split0; auto|]. intros [R nc].
    apply pres_bind; [apply pres_merge0; auto|]. intros _. unfold next_iteration. pt.
  Qed.

  Lemma count_start b s0 s : construct w I cf (ast0 I) = (Ok b, s0) -> prologue w I cf b s0 = (Ok Continue, s) -> counted [] s.
  Proof.
    intros E1 E2.
    assert (H0 : counted [] (ast0 I)).
    { split; [apply repeat_length|]. intros t Ht. cbn [ast0 a_lb lb_init lb_add1 lb_counter]. rewrite nth_repeat. reflexivity. }
    assert (W1 : wp (fun _ => counted []) (construct w I cf) (fun _ => counted []) (ast0 I)).
    { apply construct_frame; auto. }
    apply (wp_run _ _ _ _ _ _ W1) in E1.
    assert (W2 : wp (fun _ => counted []) (prologue w I cf b) (fun _ => counted []) s0).
    { apply prologue_frame; auto. intro. apply pres_improve0; auto. }
    apply (wp_run _ _ _ _ _ _ W2) in E2. exact E2.
  Qed.

  Lemma trace_counted xs s : clock_mono w -> head_trace w I cf xs s -> counted xs s.
  Proof.
    intros MC H. induction H as [b s0 s E1 E2|xs s x s1 s' H IH E1 E2]; [eapply count_start; eassumption|].
    assert (W := count_bounds xs s MC IH). apply (wp_run _ _ _ _ _ _ W) in E1 as E3. specialize (E3 _ eq_refl) as (x' & Ex & C & _).
    injection Ex as <-. rewrite iteration_eq in E2. unfold mbind in E2. rewrite E1 in E2.
    apply (wp_run _ _ _ _ _ _ (count_after (inr (Some x)) _ _ C)) in E2. exact E2.
  Qed.

  Lemma trace_exists s : clock_mono w -> head_reach w I cf s -> exists xs, head_trace w I cf xs s.
  Proof.
    intros MC H. induction H as [b s0 s E1 E2|s s' H (xs & IH) E2]; [exists []; econstructor; eassumption|].
    assert (C := trace_counted _ _ MC IH). assert (W := count_bounds xs s MC C).
    assert (E3 := E2). rewrite iteration_eq in E3. unfold mbind in E3. destruct (bound_phase w I cf s) as [[r|e] s1] eqn:E1; [|discriminate].
    apply (wp_run _ _ _ _ _ _ W) in E1 as E4. destruct r as [v|y].
    - cbn [after_bounds] in E3. unfold mret in E3. injection E3 as E3 _. subst v. exfalso. clear - E1 MC. revert E1.
      assert (D : wp (fun _ _ => True) (bound_phase w I cf) (fun r _ => r <> inl Continue) s).
      { rewrite bound_phase_eq. apply wp_steps; [auto|]. intros _ t1 _. apply wp_steps; [auto|]. intros _ t2 _. apply wp_steps; [auto|].
        intros [x ok] t3 _. unfold after_upper. destruct ok; [apply wp_ret; discriminate|]. apply wp_steps; [auto|]. intros a t4 _.
        destruct (Qle_bool a 0); [apply wp_ret; discriminate|]. apply wp_steps; [auto|]. intros g t5 _.
        destruct (gap_leb g (c_gap cf)); [apply wp_ret; discriminate|]. apply wp_steps; [auto|]. intros a' t6 _.
        destruct (Qle_bool a' 0); apply wp_ret; discriminate. }
      intro E1. apply (wp_run _ _ _ _ _ _ D) in E1. now apply E1.
    - destruct (E4 y eq_refl) as (x & -> & _). exists (x :: xs). econstructor; eassumption.
  Qed.

  Lemma trace_reach xs s : head_trace w I cf xs s -> head_reach w I cf s.
  Proof. induction 1; [eapply HR_start; eassumption|eapply HR_next; eassumption]. Qed.

  Lemma counter_head xs s : clock_mono w -> head_trace w I cf xs s ->
    forall t, t < i_k I -> (nth t (lb_counter (a_lb s)) 0 == Qn (times_ok I xs t))%Q.
  Proof. intros MC H. apply (trace_counted xs s MC H). Qed.

  Lemma projection_step xs s x s1 : clock_mono w -> head_trace w I cf xs s -> bound_phase w I cf s = (Ok (inr (Some x)), s1) ->
    projected (x :: xs) x (lb_scen (a_lb s1)).
  Proof.
    intros MC H E. assert (W := count_bounds xs s MC (trace_counted _ _ MC H)). apply (wp_run _ _ _ _ _ _ W) in E.
    destruct (E _ eq_refl) as (x' & Ex & _ & P). injection Ex as <-. exact P.
  Qed.
End Count.
