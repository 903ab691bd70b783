(** Proofs for C88: runs with additional signals. *)
From Verif Require Import Base BaseFacts Spec Instance InstanceFacts OptModels Initial Bounds Refine CostRefine Merge MergeFacts
  Knapsack Violations BigM Adaptive AdaptiveSpec AdaptiveWp Main ResultText StopSpec StopFacts.

Section Stops.
  Variable I : inst.
  Variable cf : cfg.
  Variable w : world.
  Variable sig : nat -> bool.
  Hypothesis HS : forall t, w_intr w t = true -> sig t = true.
  Local Notation okk := (okk w sig).

  Lemma ok_subset S s : okk 0 (fun w => subset_cost w I S) s.
  Proof. unfold subset_cost. walk. Qed.
  Lemma ok_store s : okk 0 (fun w => store_info w) s.
  Proof.
    unfold store_info. apply okk_last; [unfold gap_now; walk|]. intros g s1. apply okk_last; [flat|]. intros now s2.
    apply okk_put; [exact HS|]. constructor; cbn; [eexists; reflexivity|lia|apply ext_leb_refl'|apply ext_add_le, (slack_pos 0)].
  Qed.
  Lemma lower_ahead k v np s : ext_leb (a_vLB s) (Fin v) = true -> ahead k s (set_vLB (Fin v) np s).
  Proof. intro H. constructor; cbn; [exists []; now rewrite app_nil_r|lia|exact H|apply ext_add_le, slack_pos]. Qed.
  Lemma ok_improve c s : okk 0 (fun w => improve_vlb w I c) s.
  Proof.
    unfold improve_vlb. apply okk_first; [flat|]. intros s0 s1 E. injection E as <- <-.
    apply okk_conv with (m' := fun w0 => match incumbent_bound (w_norm w) (w_argsort w) I c (a_vUB s) (a_vLB s) with
      | None => mret tt | Some (x, v) => put w0 (set_xLB (Some x)) ;;; put w0 (set_vLB (Fin v) true) end); [|reflexivity..].
    destruct (incumbent_bound (w_norm w) (w_argsort w) I c (a_vUB s) (a_vLB s)) as [[x v]|] eqn:EI; [|flat].
    apply incumbent_gain in EI as [_ EI]. assert (EL : ext_leb (a_vLB s) (Fin v) = true).
    { eapply ext_leb_trans; [|exact EI]. apply ext_add_le. lra. }
    apply okk_first; [apply okk_put; [exact HS|now apply ahead_same]|]. intros u s2 E2. apply okk_put; [exact HS|]. apply lower_ahead.
    unfold put, mbind, tick in E2. destruct (w_intr w _); [discriminate|]. injection E2 as _ <-. exact EL.
  Qed.
  Lemma ok_big_M s : okk 0 (fun w => big_M w I cf) s.
  Proof.
    unfold big_M. apply okk_last; [flat|]. intros s0 s1. destruct (c_bigM cf && (min_size I <? a_nb s0)); [|flat].
    unfold update_big_M. apply okk_last; [flat|]. intros s2 s3. apply okk_last; [walk|]. intros _ s4. destruct (c_method cf).
    - apply okk_last; [|intros; walk]. apply okk_same; [reflexivity|]. destruct (belotti_all _ _ _ _ _ _) as [r t]. now apply ahead_same.
    - apply okk_last; [flat|]. intros s5 s6. apply okk_last; [flat|intros; walk].
    - flat.
    - flat.
  Qed.
  Lemma ok_cclp V u l bigM st pr t g s : okk 0 (fun w => solve_cclp w V u l bigM st pr t g) s.
  Proof. unfold solve_cclp. walk. Qed.
  Lemma ok_partition_bound s : okk 0 (fun w => partition_bound w I cf) s.
  Proof. unfold partition_bound, available. repeat (apply okk_last; [first [apply ok_cclp|walk]|intros]); walk. Qed.
  (** The upper bound may increase by 1e-8. *)
  Lemma ok_upper s : okk 1 (fun w => upper_bound_step w I cf) s.
  Proof.
    unfold upper_bound_step. apply okk_first; [flat|]. intros s0 s1 E. injection E as <- <-.
    apply okk_first; [destruct (a_nb s =? min_size I); [flat|apply ok_partition_bound]|]. intros [[[x z] vo] vb] s2 _.
    apply okk_first; [unfold available; walk|]. intros t s3 _. destruct (Qle_bool t 0); [apply okk_le with (k := 0); [walk|lia]|].
    apply okk_conv with (m' := fun w0 => let '(ok, f) := check_feasibility (w_norm w) I x in
      put w0 (set_fe (Some f)) ;;;
      put w0 (set_zUB (Some z)) ;;;
      let! s := mget in
      (if ext_leb (Fin vb) (ext_add (a_vUB s) (1 # 100000000)) then
         (if ext_leb (Fin vo) (ext_add (a_vUB s) (1 # 100000000)) then put w0 (set_xUB (Some x)) else mret tt) ;;;
         put w0 (set_vUB (Fin vb) false)
       else mret tt) ;;;
      put w0 (fun s => set_lb (save_feasible (a_lb s) (get_feasible_scenarios f)) s) ;;;
      store_info w0 ;;;
      mret (Some x, ok)); [|reflexivity..].
    destruct (check_feasibility (w_norm w) I x) as [ok f]. do 2 (apply okk_first; [walk|intros ? ? _]).
    apply okk_first; [flat|]. intros s5 s6 E. injection E as <- <-.
    apply okk_last.
    - destruct (ext_leb (Fin vb) (ext_add (a_vUB s'0) (1 # 100000000))) eqn:EB; [|apply okk_le with (k := 0); [flat|lia]].
      apply okk_first; [walk|]. intros u s6 E6. apply okk_put; [exact HS|].
      assert (EU : a_vUB s6 = a_vUB s'0).
      { destruct (ext_leb (Fin vo) _); [|unfold mret in E6; now injection E6 as _ <-].
        unfold put, mbind, tick in E6. destruct (w_intr w _); [discriminate|]. now injection E6 as _ <-. }
      constructor; cbn; [exists []; now rewrite app_nil_r|lia|apply ext_leb_refl'|]. rewrite EU.
      change (ext_leb (Fin vb) (ext_add (a_vUB s'0) (Qn 1 * (1 # 100000000))) = true).
      eapply ext_leb_trans; [exact EB|]. apply ext_add_mono_r. vm_compute. discriminate.
    - intros u s6. apply okk_last; [walk|]. intros. apply okk_last; [apply ok_store|intros; flat].
  Qed.
  Lemma ok_lower x s : okk 0 (fun w => lower_bound_step w I cf x) s.
  Proof.
    unfold lower_bound_step. apply okk_last.
    - unfold deterministic_bound. apply okk_last; [flat|]. intros s0 s1.
      apply okk_last; [flat|]. intros idx s2. apply okk_last; [flat|]. intros sel s3. walk.
    - intros [y v] s0. apply okk_first; [flat|]. intros s1 s2 E. injection E as <- <-. apply okk_last.
      + destruct (ext_ltb (a_vLB s0) (Fin v)) eqn:EL; [|flat]. apply ext_ltb_leb in EL.
        apply okk_last; [apply okk_put; [exact HS|now apply lower_ahead]|intros; walk].
      + intros u s1. apply okk_last; [unfold gap_now; walk|]. intros g s2. apply okk_last; [apply ok_store|intros; flat].
  Qed.
  Lemma ok_new p : forall l s, okk 0 (fun w => eval_new w I p l) s.
  Proof.
    induction l as [|c l IH]; intro s; cbn [eval_new]; [flat|]. apply okk_last; [flat|]. intros sub s1. apply okk_last; [apply ok_subset|].
    intros [v x] s2. apply okk_last; [flat|]. intros s3 s4. apply okk_last; [walk|]. intros u s5. apply okk_last; [apply IH|intros; flat].
  Qed.
  Lemma ok_targets p : forall l s, okk 0 (fun w => eval_targets w I p l) s.
  Proof.
    induction l as [|c l IH]; intro s; cbn [eval_targets]; [flat|]. apply okk_last; [flat|]. intros sub s1. apply okk_last; [apply ok_subset|].
    intros [v x] s2. do 4 (apply okk_last; [walk|intros]). apply okk_last; [apply IH|intros; flat].
  Qed.
  Lemma ok_refine s : okk 0 (fun w => refine w I cf) s.
  Proof.
    unfold refine. apply okk_last; [flat|]. intros s0 s1. apply okk_last; [flat|]. intros f s2. destruct (c_split cf).
    - destruct (c_acc cf); [walk|]. apply okk_last; [flat|]. intros [R t] s3. walk.
    - apply okk_last; [flat|]. intros [R cs] s3. walk.
    - flat.
  Qed.
  Lemma ok_split s : okk 0 (fun w => split_step w I cf) s.
  Proof.
    unfold split_step. apply okk_last; [apply ok_refine|]. intros R s1. do 4 (apply okk_last; [walk|intros ? ?]).
    apply okk_last; [apply ok_new|]. intros r s9. apply okk_last; [apply ok_improve|intros; flat].
  Qed.
  Lemma ok_merge x R nc s : okk 0 (fun w => merge_step w I cf x R nc) s.
  Proof.
    unfold merge_step. apply okk_last; [walk|]. intros _ s1. destruct (c_merger cf); [|flat]. apply okk_last; [flat|]. intros mx s2.
    apply okk_last; [flat|]. intros s3 s4. destruct (ext_leb (Fin mx) (a_vUB s3)); [|flat]. apply okk_last; [flat|]. intros [[kd p] ms] s5.
    do 3 (apply okk_last; [walk|intros]). apply okk_last.
    - unfold post_merge. do 7 (apply okk_last; [walk|intros]). apply okk_last; [apply ok_targets|intros; apply ok_improve].
    - intros. apply okk_last; [flat|]. intros. walk.
  Qed.
  Lemma ok_next s : okk 0 (fun w => next_iteration w cf) s.
  Proof.
    unfold next_iteration, available. apply okk_last; [walk|]. intros t s1. destruct (Qle_bool t 0); [flat|]. apply okk_last; [|intros; walk].
    apply okk_put; [exact HS|]. constructor; cbn; [exists []; now rewrite app_nil_r|lia|apply ext_leb_refl'|apply ext_add_le, (slack_pos 0)].
  Qed.
  Lemma ok_iteration s : okk 1 (fun w => iteration w I cf) s.
  Proof.
    unfold iteration. apply okk_last.
    - unfold bound_phase. apply okk_first; [unfold gap_now; walk|]. intros _ s1 _. apply okk_first; [apply ok_big_M|]. intros _ s2 _.
      apply okk_last; [apply ok_upper|]. intros [x ok] s3. destruct ok; [flat|]. unfold available. apply okk_last; [walk|]. intros t s4.
      destruct (Qle_bool t 0); [flat|]. apply okk_last; [apply ok_lower|]. intros g s5. walk.
    - intros [v|x] s1; [flat|]. apply okk_last; [apply ok_split|]. intros [R nc] s2. apply okk_last; [apply ok_merge|]. intros. apply ok_next.
  Qed.
  Lemma ok_loop : forall fuel s, okk fuel (fun w => main_loop w I cf fuel) s.
  Proof.
    induction fuel as [|fuel IH]; intro s; cbn [main_loop]; [flat|].
    apply okk_bind with (k1 := 1) (k2 := fuel); [apply ok_iteration| |lia]. intros v s' _. destruct v; [apply IH|flat..].
  Qed.
  Lemma ok_prologue num s : a_iter s <= 1 -> okk 0 (fun w => prologue w I cf num) s.
  Proof.
    intro HI. unfold prologue. apply okk_first; [flat|]. intros s0 s1 E. injection E as <- <-.
    set (P := fun s : ast => a_iter s <= 1).
    assert (KP : forall (A : Type) (m : M A) a s s', pres P m -> P s -> m s = (Ok a, s') -> P s').
    { intros A m a s1 s' H H1 E. exact (wp_run _ _ _ _ _ _ (H s1 H1) E). }
    assert (PT : forall s t, P s -> P (set_t t s)) by (intros ? ? X; exact X).
    apply okk_first; [unfold partition_cost; apply okk_last; [apply (okk_mmap w sig (fun w => subset_cost w I)); intros; apply ok_subset|intros; flat]|].
    intros [costs sols] s1 E1. apply KP in E1; [|unfold partition_cost; apply pres_bind; [apply pres_mmap; intro; now apply pres_subset_cost|intro; apply pres_ret]|exact HI].
    apply okk_first; [walk|]. intros u1 s2 E2. apply KP in E2; [|now apply pres_put|exact E1].
    apply okk_first; [walk|]. intros u2 s3 E3. apply KP in E3; [|now apply pres_put|exact E2].
    apply okk_first; [flat|]. intros u3 s4 E4. apply KP in E4; [|apply pres_lift|exact E3].
    apply okk_first; [apply ok_improve|]. intros u4 s5 E5. apply KP in E5; [|apply pres_improve0; intros; assumption|exact E4].
    apply okk_last; [|intros; unfold available; walk]. apply okk_put; [exact HS|]. constructor; cbn; [exists []; now rewrite app_nil_r|exact E5|apply ext_leb_refl'|apply ext_add_le, (slack_pos 0)].
  Qed.

  Lemma ahead_later n s s' : ahead n s s' -> later n s s'.
  Proof. intros [H1 H2 H3 H4]. constructor; auto. Qed.
  Lemma later_trans n s s' s'' : ahead n s s' -> later 0 s' s'' -> later n s s''.
  Proof.
    intros [(l & H1) H2 H3 H4] [(l' & G1) G2 G3 G4]. constructor.
    - exists (l ++ l'). now rewrite G1, H1, app_assoc.
    - lia.
    - destruct G3 as [G3|G3]; [left; eapply ext_leb_trans; eassumption|now right].
    - eapply ext_leb_trans; [exact G4|]. eapply ext_leb_trans; [apply ext_add_mono, H4|]. eapply ext_leb_trans; [apply ext_add_add|].
      apply ext_add_mono_r. change (Qn 0) with 0%Q. lra.
  Qed.
  Lemma later_refl s : later 0 s s. Proof. apply ahead_later, ahead_refl. Qed.
  (** The final assignment. *)
  Lemma epilogue_later v s : later 0 s (snd (epilogue w v s)) /\
    (epilogue (with_intr w sig) v s = epilogue w v s \/
     (fst (epilogue (with_intr w sig) v s) = Err KeyboardInterrupt /\ later 0 (snd (epilogue (with_intr w sig) v s)) (snd (epilogue w v s)))).
  Proof.
    destruct v; try (split; [apply later_refl|now left]).
    assert (F : forall s1 s2, a_log s2 = a_log s1 -> a_iter s2 = a_iter s1 -> a_vUB s2 = a_vUB s1 -> a_vLB s2 = a_vUB s2 -> later 0 s1 s2).
    { intros s1 s2 E1 E2 E3 E4. constructor; [exists []; now rewrite E1, app_nil_r|lia|now right|rewrite E3; apply ext_add_le, (slack_pos 0)]. }
    unfold epilogue, put, mbind, tick, mret. cbn [w_intr with_intr].
    cbn. destruct (w_intr w (a_t s)) eqn:E1.
    - rewrite (HS _ E1). split; [now apply F|now left].
    - destruct (sig (a_t s)).
      + split; [|right; split; [reflexivity|]]; cbn; destruct (w_intr w (S (a_t s))); now apply F.
      + cbn. destruct (w_intr w (S (a_t s))) eqn:E2.
        * rewrite (HS _ E2). split; [now apply F|now left].
        * split; [now apply F|]. destruct (sig (S (a_t s))); [right|now left]. split; [reflexivity|now apply F].
  Qed.
  Lemma solve_stopped fuel num s : a_iter s <= 1 -> solve (with_intr w sig) I cf fuel num s = solve w I cf fuel num s \/
    (fst (solve (with_intr w sig) I cf fuel num s) = Err KeyboardInterrupt /\
     later fuel (snd (solve (with_intr w sig) I cf fuel num s)) (snd (solve w I cf fuel num s))).
  Proof.
    intro HI. set (m := fun w : world => mbind (prologue w I cf num) (fun v => match v with Continue => main_loop w I cf fuel | _ => mret v end)).
    assert (OK : okk fuel m s).
    { unfold m. apply okk_first; [now apply ok_prologue|]. intros v s1 _. destruct v; [apply ok_loop|flat..]. }
    assert (EQ : forall w, solve w I cf fuel num s = mbind (m w) (epilogue w) s).
    { intro w0. unfold solve, m, mbind. destruct (prologue w0 I cf num s) as [[v|e] s1]; reflexivity. }
    rewrite !EQ. destruct OK as [H1 H2]. unfold mbind. destruct (m w s) as [[v|e] s1] eqn:E; cbn [snd] in *.
    - destruct (epilogue_later v s1) as [F1 F2]. destruct H1 as [H1|[H1 H3]].
      + rewrite H1. destruct F2 as [F2|[F2 F3]]; [now left|right]. split; [exact F2|]. destruct F3 as [A1 A2 A3 A4]. constructor; auto.
        eapply ext_leb_trans; [exact A4|]. apply ext_add_mono_r. change (Qn 0) with 0%Q. pose proof (slack_pos fuel). lra.
      + right. destruct (m (with_intr w sig) s) as [[b|e] s2]; [discriminate|]. cbn [fst snd] in *. split; [exact H1|]. eapply later_trans; eassumption.
    - destruct H1 as [H1|[H1 H3]]; [left; now rewrite H1|right]. destruct (m (with_intr w sig) s) as [[b|e'] s2]; [discriminate|]. cbn [fst snd] in *.
      split; [exact H1|]. apply ahead_later, H3.
  Qed.
End Stops.

(** The construction. *)
Section Start.
  Variable I : inst.
  Variable cf : cfg.
  Variable w : world.
  Variable sig : nat -> bool.
  Hypothesis HS : forall t, w_intr w t = true -> sig t = true.
  Definition stopped {A} (m : world -> M A) : Prop := forall s, m (with_intr w sig) s = m w s \/ fst (m (with_intr w sig) s) = Err KeyboardInterrupt.
  Lemma stopped_bind {A B} (m : world -> M A) (f : world -> A -> M B) : stopped m -> (forall a, stopped (fun w => f w a)) -> stopped (fun w => mbind (m w) (f w)).
  Proof.
    intros H1 H2 s. unfold mbind. destruct (H1 s) as [E|E].
    - rewrite E. destruct (m w s) as [[a|e] s']; [apply H2|now left].
    - right. destruct (m (with_intr w sig) s) as [[a|e] s']; [discriminate|]. cbn in *. now injection E as ->.
  Qed.
  Lemma stopped_same {A} (m : world -> M A) : (forall s, m (with_intr w sig) s = m w s) -> stopped m. Proof. intros H s. left. apply H. Qed.
  Lemma stopped_okk {A} k (m : world -> M A) : (forall s, okk w sig k m s) -> stopped m.
  Proof. intros H s. destruct (H s) as [[E|[E _]] _]; auto. Qed.
  Lemma stopped_put f : stopped (fun w => put w f).
  Proof.
    intro s. unfold put, mbind, tick. cbn [w_intr with_intr]. destruct (w_intr w _) eqn:E; [rewrite (HS _ E); now left|].
    destruct (sig _); [right|left]; reflexivity.
  Qed.
  Ltac st := repeat first [ apply stopped_put | solve [apply stopped_same; reflexivity] | apply stopped_bind; [|intro]
    | match goal with |- stopped (fun w => match ?x with _ => _ end) => destruct x end ].
  Lemma stopped_construct : stopped (fun w => construct w I cf).
  Proof.
    unfold construct, setup_initial_partition, all_scenario_costs. st.
    all: apply (stopped_okk 0); apply (okk_mmap w sig (fun w s => subset_cost w I [s])); intros; now apply ok_subset.
  Qed.
  Theorem run_stopped fuel : run (with_intr w sig) I cf fuel = run w I cf fuel \/ fst (construct (with_intr w sig) I cf (ast0 I)) = Err KeyboardInterrupt \/
    (fst (run (with_intr w sig) I cf fuel) = Err KeyboardInterrupt /\ later fuel (snd (run (with_intr w sig) I cf fuel)) (snd (run w I cf fuel))).
  Proof.
    unfold run, mbind. destruct (stopped_construct (ast0 I)) as [E|E]; [|right; left; exact E]. cbn beta in E. rewrite E.
    destruct (construct w I cf (ast0 I)) as [[b|e] s] eqn:EC; [|now left].
    destruct (solve_stopped I cf w sig HS fuel b s) as [H|H]; [|now left|right; right; exact H].
    assert (F : pres (fun s => a_iter s <= 1) (construct w I cf)) by (apply construct_frame; intros; assumption).
    assert (G := F (ast0 I) ltac:(cbn; lia)). unfold wp in G. rewrite EC in G. exact G.
  Qed.
End Start.

Lemma later_file n s s' : later n s s' -> exists t, iteration_file s' = iteration_file s ++ t.
Proof. intros [[l E] _ _ _]. exists (csv_rows (map iteration_fields l)). unfold iteration_file, csv_rows. rewrite E, !map_app, concat_app. reflexivity. Qed.

(** A run interrupted during the construction has no rows. *)
Lemma iteration_stopped I cf w sig fuel : (forall t, w_intr w t = true -> sig t = true) ->
  exists t, iteration_file (snd (run w I cf fuel)) = iteration_file (snd (run (with_intr w sig) I cf fuel)) ++ t.
Proof.
  intro HS. destruct (run_stopped I cf w sig HS fuel) as [E|[E|[_ H]]].
  - rewrite E. exists []. now rewrite app_nil_r.
  - exists (iteration_file (snd (run w I cf fuel))). unfold run at 2, mbind.
    assert (F : pres (fun s => a_log s = []) (construct (with_intr w sig) I cf)) by (apply construct_frame; intros; assumption).
    assert (G := F (ast0 I) eq_refl). unfold wp in G. destruct (construct (with_intr w sig) I cf (ast0 I)) as [[b|e] s]; [discriminate E|].
    cbn [snd]. unfold iteration_file at 2. rewrite G. reflexivity.
  - now apply later_file in H.
Qed.

(** main.py, methods 3 and 4. *)
Lemma adaptive_stopped w sig I name path ipath (info : bool) fuel cf kws split init : (forall t, w_intr w t = true -> sig t = true) ->
  let o := main_adaptive_text w I name path ipath info fuel cf kws split init in
  let o' := main_adaptive_text (with_intr w sig) I name path ipath info fuel cf kws split init in
  o' = o \/ snd o' = [] \/ exists row' t', o' = (Ok tt, (path, row') :: if info then [(ipath, t')] else []) /\
    (snd o = [] \/ exists row t, o = (Ok tt, (path, row) :: if info then [(ipath, t' ++ t)] else [])).
Proof.
  intros HS o o'. subst o o'. unfold main_adaptive_text.
  destruct (stopped_construct I cf w sig HS (ast0 I)) as [E|E]; cbn beta in E.
  2: { right; left. destruct (construct (with_intr w sig) I cf (ast0 I)) as [[b|e] s]; [discriminate E|reflexivity]. }
  rewrite E. destruct (construct w I cf (ast0 I)) as [[b|e] s] eqn:EC; [|now left].
  destruct (bind_keywords solve_params 1 kws); [|now left].
  assert (H0 : a_iter s <= 1).
  { assert (F : pres (fun s => a_iter s <= 1) (construct w I cf)) by (apply construct_frame; intros; assumption).
    assert (G := F (ast0 I) ltac:(cbn; lia)). unfold wp in G. rewrite EC in G. exact G. }
  destruct (solve_stopped I cf w sig HS fuel b s H0) as [H|[H1 H2]]; [rewrite H; now left|]. right.
  destruct (solve (with_intr w sig) I cf fuel b s) as [r' s']. cbn [fst snd] in H1, H2. subst r'.
  match goal with |- context [adaptive_file name I cf split init ?p true ?a ?f s'] => destruct (adaptive_file name I cf split init p true a f s') as [row'|e'] end;
    [right|now left].
  exists row', (iteration_file s'). split; [reflexivity|].
  destruct (solve w I cf fuel b s) as [r s2]. cbn [snd] in H2. apply later_file in H2. destruct H2 as [t Ht].
  assert (W : forall z : res text, let z' := match z with
      | Ok t => (Ok tt, (path, t) :: if info then [(ipath, iteration_file s2)] else []) | Err e => (Err e, []) end in
      snd z' = [] \/ exists row t, z' = (Ok tt, (path, row) :: if info then [(ipath, iteration_file s' ++ t)] else [])).
  { intros [z|z]; [right; exists z, t; now rewrite <- Ht|now left]. }
  destruct r as [v|e]; [apply W|]. destruct e; try (now left); apply W.
Qed.
Lemma main_stopped repr w sig I name path ipath (info : bool) fuel rfuel METHOD : (forall t, w_intr w t = true -> sig t = true) -> In METHOD [3; 4]%Z ->
  let o := main_text repr w I name path ipath info fuel rfuel METHOD in
  let o' := main_text repr (with_intr w sig) I name path ipath info fuel rfuel METHOD in
  o' = o \/ snd o' = [] \/ exists row' t', o' = (Ok tt, (path, row') :: if info then [(ipath, t')] else []) /\
    (snd o = [] \/ exists row t, o = (Ok tt, (path, row) :: if info then [(ipath, t' ++ t)] else [])).
Proof. intros HS [<-|[<-|[]]]; unfold main_text; cbn [Z.eqb Pos.eqb]; now apply adaptive_stopped. Qed.
