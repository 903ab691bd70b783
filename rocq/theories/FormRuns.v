(** Proofs for C86: whole runs. *)
From Coq Require Import Sorting.Sorted ListDec.
From Verif Require Import Base BaseFacts Spec Instance InstanceFacts PartitionFacts OptModels OptFacts Initial Bounds Refine CostRefine Merge
  MergeFacts Knapsack Violations BigM Adaptive AdaptiveSpec AdaptiveWp AdaptiveStruct Milp SolveSpec SolveFacts SolveRuns FormSpec FormFacts.

Section Keep.
  Variable I : inst.
  Variable cf : cfg.
  Variable w : world.
  Hypothesis HW : wf_inst I.
  Local Notation fit := (fit I).
  Local Notation fitted := (fitted I).

  Ltac same := intros; match goal with H : _ |- _ => exact H end.
  Ltac fin := intros; match goal with H : FormFacts.fit _ _ |- _ => destruct H as (? & ? & ?) end; split; [assumption|]; split; (assumption || discriminate).
  Ltac pf := repeat (pres_step; try solve [intros; assumption | fin]).

  Lemma fit_construct : pres fit (construct w I cf).
  Proof. unfold construct, setup_initial_partition, all_scenario_costs. pf. Qed.
  Lemma fit_prologue b : pres fit (prologue w I cf b).
  Proof.
    unfold prologue, partition_cost. apply pres_get. intro s0. apply pres_bind; [pf|intros [c so]].
    do 3 (apply pres_bind; [pf|intro]). apply pres_bind; [apply fit_improve|intro]. pf.
  Qed.
  Lemma fit_big_M : pres fit (big_M w I cf). Proof. apply pres_big_M; intros; assumption. Qed.
  Lemma fitted_big_M : pres fitted (big_M w I cf). Proof. apply pres_big_M; intros; assumption. Qed.
  Lemma fit_upper : pres fit (upper_bound_step w I cf).
  Proof.
    unfold upper_bound_step. apply pres_get. intro s0. apply pres_bind; [apply pres_if; [apply pres_lift|apply pres_partition_bound; intros; assumption]|].
    intros [[[x z] vo] vb]. apply pres_bind; [pf|intro t]. apply pres_if; [pf|]. destruct (check_feasibility _ _ _) as [ok f].
    unfold store_info. pf.
  Qed.
  Lemma fit_lower x : pres fit (lower_bound_step w I cf x).
  Proof.
    unfold lower_bound_step. apply pres_bind; [|intros [y v]; unfold store_info; pf].
    intros s HF. unfold deterministic_bound. apply wp_bind, wp_get. apply wp_bind, wp_lift; [intros idx _|auto].
    apply wp_bind, wp_lift; [intros sel E|auto]. apply wp_bind, wp_lift; [intros lb E5|auto].
    assert (HF' : fit (set_lb lb s)).
    { destruct HF as (HR & HU & HL). split; [|split; assumption]. eapply lb_prepare_rows; [exact HW| |exact HL|exact HR|exact E5].
      unfold selected_scenarios in E. destruct (_ <? _); [discriminate|]. destruct (select_loop _ _ _ _ _) as [[sel0|]|] eqn:ES; try discriminate.
      injection E as <-. apply select_lt in ES; [|constructor]. unfold uniform in ES. now rewrite repeat_length in ES. }
    apply wp_bind, wp_put; [intros _; exact HF'|]. intros _. apply wp_bind. eapply wp_mono; [apply (pres_call w fit)| |auto].
    - intros; assumption.
    - exact HF'.
    - intros o s' H. apply wp_lift; auto.
  Qed.
  Lemma fit_bounds : pres fit (bound_phase w I cf).
  Proof.
    unfold bound_phase. apply pres_bind; [pf|intro]. apply pres_bind; [apply fit_big_M|intro]. apply pres_bind; [apply fit_upper|intros [x ok]].
    apply pres_if; [pf|]. apply pres_bind; [pf|intro]. apply pres_if; [pf|]. apply pres_bind; [apply fit_lower|intro]. pf.
  Qed.
  Lemma fit_split : pres fit (split_step w I cf).
  Proof. apply pres_split0; try (intros; assumption). intro. apply fit_improve. Qed.
  Lemma fit_merge x R nc : pres fit (merge_step w I cf x R nc).
  Proof. apply pres_merge0; try (intros; assumption). intro. apply fit_improve. Qed.
  Lemma fit_next : pres fit (next_iteration w cf).
  Proof. unfold next_iteration. pf. Qed.
  Lemma fit_turn : pres fit (iteration w I cf).
  Proof.
    unfold iteration. apply pres_bind; [apply fit_bounds|]. intros [v|x]; [pf|]. apply pres_bind; [apply fit_split|intros [R nc]].
    apply pres_bind; [apply fit_merge|intro; apply fit_next].
  Qed.
  Lemma kept {A} (P : ast -> Prop) (m : M A) s a s' : pres P m -> P s -> m s = (Ok a, s') -> P s'.
  Proof. intros H HP E. specialize (H s HP). unfold wp in H. now rewrite E in H. Qed.

  Hypothesis HO : oracles_ok w I.
  Hypothesis HE : (0 <= i_eps I)%Q.
  Local Notation shaped := (shaped w I).
  Local Notation fe_ok := (fe_ok w I).
  Local Notation safe := (safe I w).
  Ltac still := apply safe_same; intro; reflexivity.

  Lemma shaped_fitted s : shaped s -> fit s -> fitted s.
  Proof.
    intros SH HF. pose proof (sh_view _ _ _ SH) as EV. rewrite (sh_nb _ _ _ SH) in EV.
    destruct (view_of_part I _ _ HW (sh_valid _ _ _ SH) EV) as [V1 V2]. split; [exact HF|]. split; [exact V1|]. rewrite V2. apply SH.
  Qed.
  Lemma safe_turn s : shaped s -> fit s -> safe (fun w => iteration w I cf) s.
  Proof.
    intros SH HF. unfold iteration. apply safe_bind.
    - unfold bound_phase. apply safe_bind; [still|]. intros g s1 E.
      assert (s1 = s). { unfold gap_now, mbind, mget, lift in E. now injection E as _ <-. } subst s1. clear E.
      assert (FD := shaped_fitted _ SH HF). apply safe_bind; [now apply safe_big_M|]. intros u s1 E1. apply (kept _ _ _ _ _ fitted_big_M FD) in E1.
      apply safe_bind; [now apply safe_upper|]. intros [x ok] s2 E2. apply (kept _ _ _ _ _ fit_upper (proj1 E1)) in E2.
      destruct ok; [still|]. apply safe_bind; [still|]. intros t s3 E3. destruct (Qle_bool t 0); [still|]. apply safe_last; [|reflexivity].
      apply safe_lower; [exact HW|]. unfold available, mbind, clock, mget, mret in E3. injection E3 as _ <-. exact E2.
    - intros [v|x] s1 _; [still|]. apply safe_bind; [now apply safe_split|]. intros [R nc] s2 _. apply safe_last; [now apply safe_merge|reflexivity].
  Qed.
  Lemma safe_loop : forall fuel s, shaped s -> fe_ok s -> fit s -> safe (fun w => main_loop w I cf fuel) s.
  Proof.
    induction fuel as [|fuel IH]; intros s SH FE HF; cbn [main_loop]; [still|]. apply safe_bind; [now apply safe_turn|].
    intros v s' E. destruct v; [|still..]. assert (G := wp_run _ _ _ _ _ _ (iteration_inv w I cf HO HW HE s SH FE) E). cbn in G.
    destruct G as [G1 G2]. apply IH; auto. exact (kept _ _ _ _ _ fit_turn HF E).
  Qed.
  Lemma fit_start : fit (ast0 I).
  Proof.
    split; [|split; discriminate]. cbn [ast0 a_lb]. unfold lb_init. apply lb_add1_rows; [exact HW|apply HW|constructor].
  Qed.
  Lemma safe_run fuel : safe (fun w => mbind (construct w I cf) (fun b => solve w I cf fuel b)) (ast0 I).
  Proof.
    apply safe_bind; [now apply safe_construct|]. intros b s EC. assert (F1 := kept _ _ _ _ _ fit_construct fit_start EC).
    assert (CS := wp_run _ _ _ _ _ _ (construct_inv w I cf HO HE) EC). cbv beta iota in CS.
    unfold solve. apply safe_bind.
    - apply safe_prologue; [exact HW|]. eapply Forall_impl; [|exact (vp_lt _ _ (cs_valid _ _ CS))]. intros S H. apply H.
    - intros v s' EP. assert (F2 := kept _ _ _ _ _ (fit_prologue b) F1 EP).
      assert (PI := wp_run _ _ _ _ _ _ (prologue_inv w I cf b s CS) EP). cbv beta iota in PI. destruct PI as (SH & FN & PP).
      apply safe_last; [|reflexivity]. destruct v; [|still..]. apply safe_loop; [exact SH|now left|exact F2].
  Qed.
End Keep.

Lemma safe_milp w I cf use method : wf_inst I -> (0 <= c_gap cf)%Q ->
  safe I w (fun w => mbind (milp_construct w I) (fun _ => milp_solve w I cf use method)) (ast0 I).
Proof.
  intros HW HG. apply safe_bind; [apply safe_same; reflexivity|]. intros _ s _. unfold milp_solve. apply safe_bind.
  - destruct use; [|apply safe_same; reflexivity]. apply safe_last; [|reflexivity]. unfold milp_compute_big_m. apply safe_last; [|reflexivity].
    unfold milp_choose_big_m. destruct method; try (apply safe_same; reflexivity).
    apply safe_bind; [now apply safe_scenarios|]. intros costs s1 _. apply safe_bind; [apply safe_same; reflexivity|].
    intros [[x v]|] s2 _; [|apply safe_same; reflexivity]. apply safe_last; [|reflexivity].
    apply (safe_belotti I w HW (fun _ => milp_view I) (fun _ => Fin v) (fun _ => i_k I) s2); [now apply milp_view_ok|discriminate|reflexivity].
  - intros bt s1 _. do 3 (apply safe_bind; [apply safe_same; reflexivity|intros ? ? _]). apply safe_last; [|reflexivity].
    apply (safe_cclp I w HW (milp_view I) use false _ [] [] []); [now apply milp_view_ok|exact HG].
Qed.

(** ** From dependence to the list *)
Lemma Q_dec' (a b : Q) : {a = b} + {a <> b}.
Proof. decide equality; [apply Pos.eq_dec|apply Z.eq_dec]. Qed.
Lemma vec_dec (a b : list Q) : {a = b} + {a <> b}.
Proof. apply list_eq_dec, Q_dec'. Qed.
(** Search for a row of the data. *)
Lemma row_search I a (P : Q -> Prop) : (forall b, {P b} + {~ P b}) -> {exists b, data_row I a b /\ P b} + {~ exists b, data_row I a b /\ P b}.
Proof.
  intro D. destruct (Nat.eq_dec (length a) (i_n I)) as [EL|NL]; [|right; intros (b & (H & _) & _); contradiction].
  destruct (Exists_dec (fun si => a = row I (fst si) (snd si) /\ P (rhs I (fst si) (snd si))) (list_prod (seq 0 (i_k I)) (seq 0 (i_m I)))) as [H|H].
  { intros [s i]. destruct (vec_dec a (row I s i)) as [E|N]; [|right; now intros [? _]]. destruct (D (rhs I s i)) as [E'|N]; [left; now split|right; now intros [_ ?]]. }
  - left. apply Exists_exists in H as ([s i] & Hin & H1 & H2). apply in_prod_iff in Hin as [Hs Hi]. apply in_seq in Hs, Hi. cbn in *.
    exists (rhs I s i). split; [|exact H2]. split; [exact EL|]. exists s, i. repeat split; auto; lia.
  - right. intros (b & (_ & s & i & Hs & Hi & E1 & E2) & HP). apply H, Exists_exists. exists (s, i). split; [apply in_prod_iff; split; apply in_seq; lia|].
    cbn. now rewrite <- E2.
Qed.
Lemma data_row_dec I a b : {data_row I a b} + {~ data_row I a b}.
Proof.
  destruct (row_search I a (fun b' => b' = b)) as [H|H]; [intro b'; apply Q_dec'| |].
  - left. now destruct H as (b' & H & <-).
  - right. intro C. apply H. now exists b.
Qed.
Lemma fits_dec I nz c : {cstr_fits I nz c} + {~ cstr_fits I nz c}.
Proof.
  destruct c as [a b|a b|a b M s|s a b|p r|s]; cbn.
  - destruct (vec_dec a (i_c I)) as [E|N], (Nat.eq_dec nz 0) as [E'|N'].
    1: now left; left.
    all: destruct (row_search I a (fun b' => b <= b')%Q) as [H|H]; [intro b'; destruct (Qlt_le_dec b' b); [right; lra|now left]|left; now right|];
      right; intros [[? ?]|C]; [contradiction|apply H, C].
  - destruct (vec_dec a (i_c I)) as [E|N]; [|right; now intros [? _]]. destruct b; [left; split; [exact E|discriminate]..|].
    right. intros [_ C]. now apply C.
  - destruct (data_row_dec I a b) as [D|D]; [|right; now intros (? & _)]. destruct (lt_dec s nz) as [L|L]; [|right; now intros (_ & ? & _)].
    destruct (Qlt_le_dec M (- (1 # 1000000))) as [G|G]; [right; intros (_ & _ & C); lra|now left].
  - destruct (data_row_dec I a b) as [D|D]; [|right; now intros (? & _)]. destruct (lt_dec s nz) as [L|L]; [now left|right; now intros (_ & ?)].
  - destruct (Nat.eq_dec (length p) nz) as [E|N]; [|right; now intros [? _]].
    destruct (Forall_dec (fun q => 0 < q)%Q) with (l := p) as [F|F]; [intro q; destruct (Qlt_le_dec 0 q); [now left|right; lra]|now left|right; now intros [_ ?]].
  - apply lt_dec.
Qed.
Lemma opt_dec (o : option Q) : {forall g, o = Some g -> (0 <= g)%Q} + {~ forall g, o = Some g -> (0 <= g)%Q}.
Proof.
  destruct o as [q|]; [|left; discriminate]. destruct (Qlt_le_dec q 0) as [L|L]; [right; intro C; specialize (C q eq_refl); lra|left; intros g E; now injection E as <-].
Qed.
Lemma formed_dec I m : {well_formed I m} + {~ well_formed I m}.
Proof.
  destruct (Nat.eq_dec (m_n m) (i_n I)) as [E1|N]; [|right; intro C; apply N, C].
  destruct (Bool.bool_dec (m_cont m) (i_cont I)) as [E2|N]; [|right; intro C; apply N, C].
  destruct (Nat.eq_dec (length (m_obj m)) (i_n I)) as [E3|N]; [|right; intro C; apply N, C].
  assert (D4 : {(m_obj m = i_c I /\ (m_const m == 0)%Q) \/ exists b, data_row I (m_obj m) b /\ (m_const m == - b)%Q} +
    {~ ((m_obj m = i_c I /\ (m_const m == 0)%Q) \/ exists b, data_row I (m_obj m) b /\ (m_const m == - b)%Q)}).
  { destruct (row_search I (m_obj m) (fun b => m_const m == - b)%Q) as [H|H]; [intro b; apply Qeq_dec|left; now right|].
    destruct (vec_dec (m_obj m) (i_c I)) as [E|N]; [|right; intros [[? _]|?]; contradiction].
    destruct (Qeq_dec (m_const m) 0) as [E'|N]; [left; left; now split|right; intros [[_ ?]|?]; contradiction]. }
  destruct D4 as [E4|N]; [|right; intro C; apply N, C].
  destruct (Forall_dec (cstr_fits I (m_nz m)) (fits_dec I (m_nz m)) (m_cstrs m)) as [E5|N]; [|right; intro C; apply N, C].
  destruct (Forall_dec (fun kv : nat * Q => fst kv < m_nz m /\ (snd kv == 1)%Q)) with (l := m_start m) as [E6|N];
    [intros [k v]; cbn; destruct (lt_dec k (m_nz m)), (Qeq_dec v 1); [left; now split|right; now intros [? ?]..]| |right; intro C; apply N, C].
  destruct (ListDec.NoDup_dec Nat.eq_dec (map fst (m_start m))) as [E7|N]; [|right; intro C; apply N, C].
  destruct (opt_dec (m_gap m)) as [E8|N]; [|right; intro C; apply N, C].
  destruct (opt_dec (m_time m)) as [E9|N]; [|right; intro C; apply N, C].
  left. constructor; auto.
Qed.
Lemma sorted_filter {A} (g : nat * A -> bool) : forall L, StronglySorted lt (map fst L) -> StronglySorted lt (map fst (filter g L)).
Proof.
  induction L as [|q L IH]; intro H; [constructor|]. cbn in H. inversion H as [|? ? H1 H2]; subst. cbn. destruct (g q); [|now apply IH].
  cbn. constructor; [now apply IH|]. apply Forall_forall. intros t Ht. apply in_map_iff in Ht as (q' & <- & Hq). apply filter_In in Hq as [Hq _].
  rewrite Forall_forall in H2. apply H2, in_map, Hq.
Qed.
Lemma formed_models {A} I w (go : world -> res A * ast) L k :
  (forall w1 f, (exists g, w1 = with_solve w g) -> (forall t q, well_formed I q -> f t q = w_solve w1 t q) -> go (with_solve w1 f) = go w1) ->
  models_solved w go L -> length L <= k ->
  exists L', models_solved w go L' /\ length L' <= k /\ Forall (fun q => well_formed I (snd q)) L'.
Proof.
  intros HS (S1 & D1 & T1) HK. set (g := fun q : nat * model => if formed_dec I (snd q) then true else false).
  assert (HG : forall q, In q (filter g L) <-> In q L /\ well_formed I (snd q)).
  { intro q. rewrite filter_In. unfold g. destruct (formed_dec I (snd q)); intuition congruence. }
  (* answers to other models are replaced by those of w *)
  set (fix_ := fun (f : nat -> model -> outcome) t q => if formed_dec I q then f t q else w_solve w t q).
  assert (HX : forall f, go (with_solve w f) = go (with_solve w (fix_ f))).
  { intro f. rewrite <- (HS (with_solve w f) (fix_ f)).
    - reflexivity.
    - now exists f.
    - intros t q Hq. unfold fix_. destruct (formed_dec I q); [reflexivity|contradiction]. }
  exists (filter g L). split; [|split].
  - split; [now apply sorted_filter|]. split.
    + intros f Hf. rewrite HX. apply D1. intros t m Hin. unfold fix_. destruct (formed_dec I m) as [F|]; [|reflexivity].
      apply Hf, HG. now split.
    + intros f t m Hin Hb HI. rewrite HX. apply HG in Hin as [Hin HF]. apply (T1 _ t m Hin).
      * intros t' m' Hin' LT. unfold fix_. destruct (formed_dec I m') as [F|]; [|reflexivity]. apply Hb; [apply HG; now split|exact LT].
      * unfold fix_. cbn in HF. destruct (formed_dec I m); [exact HI|contradiction].
  - assert (H : forall l, length (filter g l) <= length l) by (induction l as [|a l IH]; cbn; [lia|]; destruct (g a); cbn; lia). specialize (H L). lia.
  - apply Forall_forall. intros q Hq. now apply HG.
Qed.

Theorem run_formed w I cf fuel : oracles_ok w I -> wf_inst I -> (0 <= i_eps I)%Q ->
  exists L, models_solved w (fun w => run w I cf fuel) L /\ Forall (fun q => well_formed I (snd q)) L.
Proof.
  intros HO HW HE. destruct (models_turns w I cf fuel HO HW HE) as (L & HL & _).
  destruct (formed_models I w (fun w => run w I cf fuel) L (length L)) as (L' & H1 & _ & H2); [|exact HL|lia|].
  - intros w1 f (g & ->) Hf. apply (safe_run I cf (with_solve w g) HW HO HE fuel f Hf).
  - now exists L'.
Qed.
Theorem milp_formed w I cf use method : wf_inst I -> (0 <= c_gap cf)%Q ->
  exists L, models_solved w (fun w => milp_run w I cf use method) L /\ Forall (fun q => well_formed I (snd q)) L.
Proof.
  intros HW HG. destruct (models_milp w I cf use method HW) as (L & HL & _).
  destruct (formed_models I w (fun w => milp_run w I cf use method) L (length L)) as (L' & H1 & _ & H2); [|exact HL|lia|].
  - intros w1 f (g & ->) Hf. apply (safe_milp (with_solve w g) I cf use method HW HG f Hf).
  - now exists L'.
Qed.
(** Answers to other models do not matter. *)
Theorem run_depends w I cf fuel f : oracles_ok w I -> wf_inst I -> (0 <= i_eps I)%Q ->
  (forall t q, well_formed I q -> f t q = w_solve w t q) -> run (with_solve w f) I cf fuel = run w I cf fuel.
Proof. intros HO HW HE Hf. apply (safe_run I cf w HW HO HE fuel f Hf). Qed.
Theorem milp_depends w I cf use method f : wf_inst I -> (0 <= c_gap cf)%Q ->
  (forall t q, well_formed I q -> f t q = w_solve w t q) -> milp_run (with_solve w f) I cf use method = milp_run w I cf use method.
Proof. intros HW HG Hf. apply (safe_milp w I cf use method HW HG f Hf). Qed.
