(** Iteration log, time tests and lower-bound model of a turn. *)
From Verif Require Import Base BaseFacts Spec Instance InstanceFacts OptModels Initial Bounds Refine CostRefine Merge
  MergeFacts Violations BigM InitialFacts BoundsFacts Adaptive AdaptiveSpec AdaptiveWp LogSpec.
From Coq Require Import Sorting.Sorted.

(** ** Calls counted by belotti_all *)
Lemma belotti_row_t solve V u s l : forall t r t', belotti_row solve V u s l t = (r, t') -> t <= t'.
Proof.
  induction l as [|i l IH]; intros t r t' E; cbn [belotti_row] in E; [injection E as _ <-; lia|].
  destruct (belotti_mip _) as [b|e]; [|injection E as _ <-; lia].
  destruct (belotti_row solve V u s l (S t)) as [r1 t1] eqn:E1. apply IH in E1. injection E as _ <-. lia.
Qed.
Lemma belotti_rows_t solve V u l : forall t r t', belotti_rows solve V u l t = (r, t') -> t <= t'.
Proof.
  induction l as [|s l IH]; intros t r t' E; cbn [belotti_rows] in E; [injection E as _ <-; lia|].
  destruct (belotti_row solve V u s _ t) as [[row|e] t1] eqn:E1; apply belotti_row_t in E1; [|injection E as _ <-; lia].
  destruct (belotti_rows solve V u l t1) as [r2 t2] eqn:E2. apply IH in E2. injection E as _ <-. lia.
Qed.
Lemma belotti_all_t argsort solve V u nb t r t' : belotti_all argsort solve V u nb t = (r, t') -> t <= t'.
Proof.
  unfold belotti_all. destruct (integer_vars V); [apply belotti_rows_t|]. intro E. injection E as _ <-. lia.
Qed.

Section Timed.
  Variable w : world.
  Variable I : inst.
  Variable cf : cfg.

  (** A predicate about log, start and call counter that survives calls and stored rows. *)
  Variable T : list logrow -> Q -> nat -> Prop.
  Hypothesis HM : forall L st t t', t <= t' -> T L st t -> T L st t'.
  Hypothesis HL : forall L st t r, T L st t -> log_entry (w_clock w) st r t -> T (L ++ [r]) st (S t).
  Definition timed (s : ast) : Prop := T (a_log s) (a_start s) (a_t s).

  Lemma tm_t s t : a_t s <= t -> timed s -> timed (set_t t s).
  Proof. intro H. apply HM, H. Qed.
  Lemma tm_bump s : timed s -> timed (bump s).
  Proof. apply tm_t. lia. Qed.

  (** Assignments of other attributes. *)
  Definition still (f : ast -> ast) : Prop := forall s, a_log (f s) = a_log s /\ a_start (f s) = a_start s /\ a_t (f s) = a_t s.
  Lemma tm_put f : still f -> pres timed (put w f).
  Proof.
    intros H s Hs. assert (Hf : timed (f s)) by (unfold timed; destruct (H s) as (-> & -> & ->); exact Hs).
    apply wp_put; intros _; now apply tm_bump.
  Qed.
  Lemma tm_clock : pres timed (clock w). Proof. intros s H. now apply tm_bump. Qed.
  Lemma tm_available : pres timed (available w cf). Proof. intros s H. apply wp_available. now apply tm_bump. Qed.
  Lemma tm_call m : pres timed (call w m).
  Proof. intros s H. apply wp_call; intros; repeat apply tm_bump; exact H. Qed.
  Lemma tm_subset_cost S : pres timed (subset_cost w I S).
  Proof.
    apply pres_bind; [apply tm_call|]. intro o. apply pres_bind; [apply pres_lift|]. intros [[[x z] v] b]. apply pres_ret.
  Qed.

  Ltac st := intro; repeat split; reflexivity.
  Ltac tm_step :=
    match goal with
    | |- pres _ (mret _) => apply pres_ret
    | |- pres _ (mraise _) => apply pres_raise
    | |- pres _ (lift _) => apply pres_lift
    | |- pres _ (mbind mget _) => apply pres_get; intro
    | |- pres _ (mbind _ _) => apply pres_bind; [|intro]
    | |- pres _ (if _ then _ else _) => apply pres_if
    | |- pres _ (match ?x with _ => _ end) => destruct x
    | |- pres _ (put _ _) => apply tm_put; st
    | |- pres _ (clock _) => apply tm_clock
    | |- pres _ (available _ _) => apply tm_available
    | |- pres _ (call _ _) => apply tm_call
    | |- pres _ (subset_cost _ _ _) => apply tm_subset_cost
    | |- pres _ (mmap _ _) => apply pres_mmap; intro
    | |- pres _ gap_now => apply pres_gap
    end.
  Ltac pt := repeat tm_step.

  Lemma compute_gap_value vU npU vL npL g : compute_gap vU npU vL npL = Ok g -> gap_value vL vU g.
  Proof.
    unfold compute_gap. destruct vL as [|l|].
    - intro E. injection E as <-. constructor.
    - destruct vU as [|u|]; intro E.
      + injection E as <-. constructor; auto; discriminate.
      + destruct (Qeq_bool l 0) eqn:E0.
        * apply Qeq_bool_iff in E0. destruct (npU || npL); [|discriminate]. injection E as <-.
          destruct (Qeq_bool u 0) eqn:EU; [apply Qeq_bool_iff in EU; now constructor|]. apply Qeq_bool_neq in EU.
          destruct (Qlt_bool 0 u) eqn:EP; [apply Qlt_bool_iff in EP; now constructor|]. constructor; [exact E0|].
          destruct (Qlt_le_dec 0 u) as [C|C]; [apply Qlt_bool_iff in C; congruence|]. apply Qle_lteq in C as [C|C]; [exact C|contradiction].
        * apply Qeq_bool_neq in E0. injection E as <-. constructor; [exact E0|]. field. exact E0.
      + injection E as <-. constructor. discriminate.
    - destruct vU as [|u|]; intro E; injection E as <-; constructor; auto; discriminate.
  Qed.

  Lemma tm_store : pres timed (store_info w).
  Proof.
    intros s Hs. unfold store_info. apply wp_bind. unfold gap_now. apply wp_bind, wp_get, wp_lift; [|intros; exact Hs]. intros g EG.
    apply wp_bind, wp_clock.
    assert (HR : log_entry (w_clock w) (a_start s) (mkLog (a_iter s) (w_clock w (a_t s) - a_start s) (ext_opp (a_vLB s)) (ext_opp (a_vUB s)) g (a_nb s)) (a_t s)).
    { split; [reflexivity|]. exists (a_vLB s), (a_vUB s). split; [reflexivity|]. split; [reflexivity|].
      apply compute_gap_value in EG. exact EG. }
    assert (HS := HL _ _ _ _ Hs HR).
    apply wp_put; intros _; apply tm_bump; exact HS.
  Qed.
  Lemma tm_improve cands : pres timed (improve_vlb w I cands).
  Proof. unfold improve_vlb. pt. Qed.
  Lemma tm_big_M : pres timed (big_M w I cf).
  Proof.
    unfold big_M, update_big_M. apply pres_get; intro s0. apply pres_if; [|apply pres_ret]. pt.
    intros s H. unfold wp. destruct (belotti_all _ _ _ _ _ _) as [[r|e] t] eqn:E; apply belotti_all_t in E; now apply tm_t.
  Qed.
  Lemma tm_partition : pres timed (partition_bound w I cf).
  Proof.
    unfold partition_bound, solve_cclp. apply pres_bind; [pt|intro]. apply pres_get; intro. apply pres_bind; [pt|intro].
    apply pres_bind; [pt|intros [[[x z] vo] vb]]. pt.
  Qed.
  Lemma tm_deterministic x : pres timed (deterministic_bound w I cf x).
  Proof. unfold deterministic_bound. pt. Qed.
  Lemma tm_lower x : pres timed (lower_bound_step w I cf x).
  Proof.
    unfold lower_bound_step. apply pres_bind; [apply tm_deterministic|]. intros [y v]. apply pres_get; intro s0.
    apply pres_bind; [pt|intro]. apply pres_bind; [pt|intro]. apply pres_bind; [apply tm_store|intro; pt].
  Qed.
  Lemma tm_upper : pres timed (upper_bound_step w I cf).
  Proof.
    unfold upper_bound_step. apply pres_get; intro s0. apply pres_bind.
    { apply pres_if; [apply pres_lift|apply tm_partition]. }
    intros [[[x z] vo] vb]. apply pres_bind; [pt|intro t]. apply pres_if; [pt|].
    destruct (check_feasibility (w_norm w) I x) as [ok f].
    do 2 (apply pres_bind; [pt|intro]). apply pres_get; intro s1. apply pres_bind; [pt|intro]. apply pres_bind; [pt|intro].
    apply pres_bind; [apply tm_store|intro; pt].
  Qed.
  Lemma tm_after_upper x ok : pres timed (after_upper w I cf x ok).
  Proof.
    unfold after_upper. apply pres_if; [pt|]. apply pres_bind; [pt|intro]. apply pres_if; [pt|].
    apply pres_bind; [apply tm_lower|intro]. pt.
  Qed.
  Lemma tm_bound_phase : pres timed (bound_phase w I cf).
  Proof.
    rewrite bound_phase_eq. apply pres_bind; [pt|intro]. apply pres_bind; [apply tm_big_M|intro].
    apply pres_bind; [apply tm_upper|]. intros [x ok]. apply tm_after_upper.
  Qed.
  Lemma tm_eval_new p l : pres timed (eval_new w I p l).
  Proof. induction l as [|c l IH]; cbn [eval_new]; repeat (assumption || tm_step). Qed.
  Lemma tm_eval_targets p l : pres timed (eval_targets w I p l).
  Proof. induction l as [|c l IH]; cbn [eval_targets]; repeat (assumption || tm_step). Qed.
  Lemma tm_split : pres timed (split_step w I cf).
  Proof.
    unfold split_step. apply pres_bind; [unfold refine; pt|intro R]. do 3 (apply pres_bind; [pt|intro]).
    apply pres_bind; [pt|intro]. apply pres_bind; [apply tm_eval_new|intro r]. apply pres_bind; [apply tm_improve|intro; pt].
  Qed.
  Lemma tm_merge x R nc : pres timed (merge_step w I cf x R nc).
  Proof.
    unfold merge_step. apply pres_bind; [pt|intro]. apply pres_if; [|apply pres_ret].
    apply pres_bind; [pt|intro]. apply pres_get; intro s. apply pres_if; [|apply pres_ret].
    apply pres_bind; [pt|intros [[k p] ms]]. do 3 (apply pres_bind; [pt|intro]).
    apply pres_bind; [|intro; pt]. unfold post_merge. apply pres_get; intro s1.
    do 7 (apply pres_bind; [first [apply tm_eval_targets|pt]|intro]). apply tm_improve.
  Qed.
  Lemma tm_iteration : pres timed (iteration w I cf).
  Proof.
    rewrite iteration_eq. apply pres_bind; [apply tm_bound_phase|]. intros [v|x]; [apply pres_ret|]. unfold after_bounds.
    apply pres_bind; [apply tm_split|]. intros [R nc]. apply pres_bind; [apply tm_merge|intro]. unfold next_iteration. pt.
  Qed.
  Lemma tm_main_loop fuel : pres timed (main_loop w I cf fuel).
  Proof.
    induction fuel as [|n IH]; cbn [main_loop]; [apply pres_raise|]. apply pres_bind; [apply tm_iteration|].
    intros []; try apply pres_ret. exact IH.
  Qed.
  Lemma tm_prologue b : pres timed (prologue w I cf b).
  Proof.
    unfold prologue, partition_cost. apply pres_get; intro s0. apply pres_bind; [pt|intros [costs sols]].
    do 3 (apply pres_bind; [pt|intro]). apply pres_bind; [apply tm_improve|intro]. pt.
  Qed.
  Lemma tm_epilogue v : pres timed (epilogue w v).
  Proof. unfold epilogue. pt. Qed.
  Lemma tm_solve fuel b : pres timed (solve w I cf fuel b).
  Proof.
    unfold solve. apply pres_bind; [apply tm_prologue|]. intro v. apply pres_bind; [|intro; apply tm_epilogue].
    destruct v; try apply pres_ret. apply tm_main_loop.
  Qed.
  Lemma tm_setup : pres timed (setup_initial_partition w I cf).
  Proof.
    unfold setup_initial_partition, all_scenario_costs. apply pres_bind; [pt|intro]. apply pres_bind; [pt|intro].
    apply pres_bind; [destruct (c_init cf); pt|]. intro costs. apply pres_get; intro s0. pt.
  Qed.
  (** Construction sets the start to the first call of the clock. *)
  Lemma tm_construct s : (forall t, S (a_t s) <= t -> T (a_log s) (w_clock w (a_t s)) t) ->
    wp (fun _ => timed) (construct w I cf) (fun _ => timed) s.
  Proof.
    intro H. unfold construct. apply wp_bind, wp_clock. apply wp_bind.
    assert (G : timed (bump (set_start (w_clock w (a_t s)) (bump s)))) by (apply H; cbn; lia).
    apply wp_put; intros _; [exact G|]. revert G.
    match goal with |- timed ?x -> wp _ ?m _ _ => generalize x; change (pres timed m) end.
    apply pres_bind; [pt|intro]. apply pres_bind; [apply tm_setup|intro b]. pt.
  Qed.
  Lemma tm_run fuel r s : (forall t, 1 <= t -> T [] (w_clock w 0) t) -> run w I cf fuel = (r, s) -> timed s.
  Proof.
    intros H E. unfold run in E.
    assert (W : wp (fun _ => timed) (mbind (construct w I cf) (solve w I cf fuel)) (fun _ => timed) (ast0 I)).
    { eapply wp_bind_mono; [apply tm_construct; intros t Ht; apply H; exact Ht|]. intros b s1 H1. now apply tm_solve. }
    apply (wp_run _ _ _ _ _ _ W) in E. destruct r; exact E.
  Qed.
End Timed.

(** ** Times and gaps of the log *)
Section Log.
  Variable w : world.
  Variable I : inst.
  Variable cf : cfg.

  Definition written (st : Q) (L : list logrow) (t : nat) : Prop :=
    exists ks, StronglySorted lt ks /\ Forall (fun k => 0 < k < t) ks /\ Forall2 (log_entry (w_clock w) st) L ks.

  Lemma sorted_snoc ks k : StronglySorted lt ks -> Forall (fun j => j < k) ks -> StronglySorted lt (ks ++ [k]).
  Proof.
    induction 1 as [|a l Hl IH Ha]; intro F; cbn [app]; [repeat constructor|]. inversion F; subst. constructor; [now apply IH|].
    apply Forall_app. auto.
  Qed.

  Lemma log_times fuel r s : run w I cf fuel = (r, s) -> a_start s = w_clock w 0 /\ written (w_clock w 0) (a_log s) (a_t s).
  Proof.
    set (T := fun (L : list logrow) st t => 0 < t /\ st = w_clock w 0 /\ written st L t).
    intro E. assert (G : T (a_log s) (a_start s) (a_t s)); [revert E; apply (tm_run w I cf T)|destruct G as (_ & E1 & G); rewrite E1 in G; auto].
    - intros L st t t' Ht (A0 & A1 & ks & A2 & A3 & A4). split; [lia|]. split; [exact A1|]. exists ks. split; [exact A2|]. split; [|exact A4].
      eapply Forall_impl; [|exact A3]. cbv beta. intros. lia.
    - intros L st t r0 (A0 & A1 & ks & A2 & A3 & A4) HR. split; [lia|]. split; [exact A1|]. exists (ks ++ [t]). split; [|split].
      + apply sorted_snoc; [exact A2|]. eapply Forall_impl; [|exact A3]. cbv beta. intros. lia.
      + apply Forall_app. split; [eapply Forall_impl; [|exact A3]; cbv beta; intros; lia|]. repeat constructor; lia.
      + apply Forall2_app; [exact A4|]. constructor; [exact HR|constructor].
    - intros t Ht. split; [exact Ht|]. split; [reflexivity|]. exists []. repeat constructor.
  Qed.

  Lemma written_order st L t : clock_mono w -> written st L t ->
    StronglySorted (fun a b => l_time a <= l_time b)%Q L /\ Forall (fun r => w_clock w 0 - st <= l_time r <= w_clock w t - st)%Q L.
  Proof.
    intros MC (ks & S1 & S2 & S3). revert S1 S2. induction S3 as [|r k L ks [HR _] HF IH]; intros S1 S2; [split; constructor|].
    inversion S1; subst. inversion S2; subst. destruct (IH H1 H4) as [B1 B2]. split; constructor; auto.
    - clear - MC HR H2 HF. induction HF as [|r' k' L ks [HR' _] HF IH]; constructor.
      + inversion H2; subst. rewrite HR, HR'. assert (M := MC k k'). assert (w_clock w k <= w_clock w k')%Q by (apply M; lia). lra.
      + apply IH. now inversion H2.
    - rewrite HR. assert (M1 := MC 0 k ltac:(lia)). assert (M2 := MC k t ltac:(lia)). lra.
  Qed.
  Lemma log_order fuel r s : clock_mono w -> run w I cf fuel = (r, s) ->
    StronglySorted (fun a b => l_time a <= l_time b)%Q (a_log s) /\
    Forall (fun e => 0 <= l_time e <= w_clock w (a_t s) - w_clock w 0)%Q (a_log s).
  Proof.
    intros MC E. apply log_times in E as [_ E]. destruct (written_order _ _ _ MC E) as [A B]. split; [exact A|].
    eapply Forall_impl; [|exact B]. cbv beta. intros a Ha. lra.
  Qed.

  (** ** Time tests *)
  (** Start st0, at least t0 calls. *)
  Definition since (st0 : Q) (t0 : nat) (s : ast) : Prop := timed (fun _ st t => st = st0 /\ t0 <= t) s.
  Lemma since_M (st0 : Q) (t0 : nat) : forall (L : list logrow) st t t', t <= t' -> st = st0 /\ t0 <= t -> st = st0 /\ t0 <= t'.
  Proof. intros L st t t' H [A B]. split; [exact A|lia]. Qed.
  Lemma since_L (st0 : Q) (t0 : nat) : forall (L : list logrow) st t r, st = st0 /\ t0 <= t -> log_entry (w_clock w) st r t -> st = st0 /\ t0 <= S t.
  Proof. intros L st t r [A B] _. split; [exact A|lia]. Qed.
  Lemma since_self s : since (a_start s) (a_t s) s.
  Proof. split; [reflexivity|lia]. Qed.
  Lemma since_le st0 t0 t1 s : t1 <= t0 -> since st0 t0 s -> since st0 t1 s.
  Proof. intros H [A B]. split; [exact A|lia]. Qed.

  Lemma wp_weak {A} (m : M A) (P : ast -> Prop) s : pres P m -> P s -> wp (fun _ _ => True) m (fun _ => P) s.
  Proof. intros H Hs. eapply wp_mono; [apply H, Hs|auto|auto]. Qed.

  (** The test that follows a call of the clock. *)
  Lemma test_true t st : Qle_bool (Qmax (c_limit cf - (w_clock w t - st)) 0) 0 = true -> ~ in_time w cf st t.
  Proof.
    intros H C. unfold in_time in C. apply Qle_bool_iff in H. assert (M := Q.le_max_l (c_limit cf - (w_clock w t - st)) 0). lra.
  Qed.
  Lemma test_false t st : Qle_bool (Qmax (c_limit cf - (w_clock w t - st)) 0) 0 = false -> in_time w cf st t.
  Proof.
    intro H. unfold in_time. destruct (Qlt_le_dec (w_clock w t - st) (c_limit cf)) as [C|C]; [exact C|]. exfalso.
    assert (Qle_bool (Qmax (c_limit cf - (w_clock w t - st)) 0) 0 = true); [|congruence]. apply Qle_bool_iff. apply Q.max_lub; lra.
  Qed.

  (** The last call was a successful time test. *)
  Definition just_tested (t0 : nat) (s : ast) : Prop := exists t, t0 <= t /\ a_t s = S t /\ in_time w cf (a_start s) t.
  (** A time test has failed since call t0. *)
  Definition late (st0 : Q) (t0 : nat) (s : ast) : Prop := exists t, t0 <= t < a_t s /\ ~ in_time w cf st0 t.

  Lemma tests_next st0 t0 s : since st0 t0 s -> wp (fun _ _ => True) (next_iteration w cf)
    (fun v s' => since st0 t0 s' /\ (v = Continue /\ just_tested t0 s' \/ v = TimeUp /\ late st0 t0 s')) s.
  Proof.
    intros [A B]. unfold next_iteration. apply wp_bind, wp_available. destruct (Qle_bool _ 0) eqn:E1.
    { apply wp_ret. split; [split; [exact A|cbn; lia]|]. right. split; [reflexivity|]. exists (a_t s). split; [cbn; lia|].
      rewrite A in E1. now apply test_true. }
    apply wp_bind, wp_put; intros _; [exact Logic.I|]. apply wp_bind, wp_available. clear E1. destruct (Qle_bool _ 0) eqn:E2; apply wp_ret.
    - split; [split; [exact A|cbn; lia]|]. right. split; [reflexivity|]. eexists. split; [|apply test_true; rewrite <- A; exact E2]. cbn. lia.
    - split; [split; [exact A|cbn; lia]|]. left. split; [reflexivity|]. eexists. split; [|split; [reflexivity|apply test_false; exact E2]]. cbn. lia.
  Qed.

  Lemma tests_after_upper st0 t0 x ok s : since st0 t0 s -> wp (fun _ _ => True) (after_upper w I cf x ok)
    (fun r s' => since st0 t0 s' /\
       match r with inl TimeUp => late st0 t0 s' | inr _ => just_tested t0 s' | inl Continue => False | inl Feasible => ok = true | _ => ok = false end) s.
  Proof.
    intros [A B]. unfold after_upper. destruct ok; [apply wp_ret; split; [split; assumption|reflexivity]|].
    apply wp_bind, wp_available. destruct (Qle_bool _ 0) eqn:E1.
    { apply wp_ret. split; [split; [exact A|cbn; lia]|]. exists (a_t s). split; [cbn; lia|]. rewrite A in E1. now apply test_true. }
    eapply wp_bind_mono; [apply (wp_weak _ (since st0 t0))|].
    - apply tm_lower; [apply since_M|apply since_L].
    - split; [exact A|cbn; lia].
    - clear s A B E1. intros g s [A B]. destruct (gap_leb g (c_gap cf)); [apply wp_ret; split; [split; assumption|reflexivity]|].
      apply wp_bind, wp_available. destruct (Qle_bool _ 0) eqn:E1; apply wp_ret.
      + split; [split; [exact A|cbn; lia]|]. exists (a_t s). split; [cbn; lia|]. rewrite A in E1. now apply test_true.
      + split; [split; [exact A|cbn; lia]|]. eexists. split; [exact B|]. split; [reflexivity|]. apply test_false. exact E1.
  Qed.
  Lemma tests_bound_phase st0 t0 s : since st0 t0 s -> wp (fun _ _ => True) (bound_phase w I cf)
    (fun r s' => since st0 t0 s' /\
       match r with inl TimeUp => late st0 t0 s' | inr _ => just_tested t0 s' | inl Continue => False | inl _ => True end) s.
  Proof.
    intro H. rewrite bound_phase_eq. eapply wp_bind_mono; [apply (wp_weak _ (since st0 t0)); [apply pres_gap|exact H]|].
    clear s H. cbv beta. intros _ s H. eapply wp_bind_mono; [apply (wp_weak _ (since st0 t0)); [apply tm_big_M; apply since_M|exact H]|].
    clear s H. cbv beta. intros _ s H. eapply wp_bind_mono; [apply (wp_weak _ (since st0 t0)); [apply tm_upper; [apply since_M|apply since_L]|exact H]|].
    clear s H. intros [x ok] s H. eapply wp_mono; [apply tests_after_upper; exact H| |auto].
    cbv beta. intros [[]|y] s' [A B]; auto.
  Qed.
  Lemma tests_iteration st0 t0 s : since st0 t0 s -> wp (fun _ _ => True) (iteration w I cf)
    (fun v s' => since st0 t0 s' /\ match v with TimeUp => late st0 t0 s' | Continue => just_tested t0 s' | _ => True end) s.
  Proof.
    intro H. rewrite iteration_eq. eapply wp_bind_mono; [apply tests_bound_phase, H|]. clear s H. cbv beta.
    intros [v|x] s [H1 H2]; unfold after_bounds.
    - apply wp_ret. split; [exact H1|]. destruct v; auto. contradiction.
    - eapply wp_bind_mono; [apply (wp_weak _ (since st0 t0)); [apply tm_split; apply since_M|exact H1]|].
      clear s H1 H2. intros [R nc] s H. eapply wp_bind_mono; [apply (wp_weak _ (since st0 t0)); [apply tm_merge; apply since_M|exact H]|].
      clear s H. cbv beta. intros _ s H. eapply wp_mono; [apply tests_next, H| |auto]. cbv beta.
      intros v s' [A [[-> B]|[-> B]]]; auto.
  Qed.

  Lemma tests_prologue b s s' v : prologue w I cf b s = (Ok v, s') ->
    since (a_start s) (a_t s) s' /\ match v with TimeUp => late (a_start s) (a_t s) s' | Continue => just_tested (a_t s) s' | _ => False end.
  Proof.
    intro E. assert (H := since_self s).
    assert (W : wp (fun _ _ => True) (prologue w I cf b) (fun v s' => since (a_start s) (a_t s) s' /\
      match v with TimeUp => late (a_start s) (a_t s) s' | Continue => just_tested (a_t s) s' | _ => False end) s).
    2: { unfold wp in W. rewrite E in W. exact W. }
    clear E. generalize (a_start s), (a_t s), H. clear H v s'. intros st0 t0 H.
    unfold prologue. apply wp_bind, wp_get. generalize (a_part s). intro p.
    eapply wp_bind_mono; [apply (wp_weak _ (since st0 t0)); [|exact H]|].
    { unfold partition_cost. apply pres_bind; [|intro; apply pres_ret]. apply pres_mmap. intro. apply tm_subset_cost. apply since_M. }
    clear s H. intros [costs sols] s H.
    do 2 (eapply wp_bind_mono; [apply (wp_weak _ (since st0 t0)); [apply tm_put; [apply since_M|intro; repeat split]|exact H]|];
      clear s H; cbv beta; intros _ s H).
    eapply wp_bind_mono; [apply (wp_weak _ (since st0 t0)); [apply pres_lift|exact H]|]. clear s H. cbv beta. intros _ s H.
    eapply wp_bind_mono; [apply (wp_weak _ (since st0 t0)); [apply tm_improve; apply since_M|exact H]|]. clear s H. cbv beta. intros _ s H.
    eapply wp_bind_mono; [apply (wp_weak _ (since st0 t0)); [apply tm_put; [apply since_M|intro; repeat split]|exact H]|]. clear s H. cbv beta. intros _ s [A B].
    apply wp_bind, wp_available. apply wp_ret. split; [split; [exact A|cbn; lia]|]. destruct (Qle_bool _ 0) eqn:E1.
    - exists (a_t s). split; [cbn; lia|]. rewrite A in E1. now apply test_true.
    - eexists. split; [exact B|]. split; [reflexivity|]. apply test_false. exact E1.
  Qed.

  Lemma start_construct b s : construct w I cf (ast0 I) = (Ok b, s) -> a_start s = w_clock w 0.
  Proof.
    intro E. assert (W := tm_construct w I cf (fun _ st _ => st = w_clock w 0)
      (fun _ _ _ _ _ X => X) (ast0 I) (fun _ _ => eq_refl)).
    apply (wp_run _ _ _ _ _ _ W) in E. exact E.
  Qed.

  (** A turn begins just after a successful time test. *)
  Lemma head_tested s : head_reach w I cf s -> a_start s = w_clock w 0 /\ exists t, a_t s = S t /\ in_time w cf (w_clock w 0) t.
  Proof.
    induction 1 as [b s0 s E1 E2|s s' H [IH _] E].
    - apply start_construct in E1. apply tests_prologue in E2 as [[A _] (t & _ & B1 & B2)]. rewrite A, E1 in *. split; [reflexivity|]. now exists t.
    - assert (W := tests_iteration _ _ s (since_self s)). apply (wp_run _ _ _ _ _ _ W) in E. destruct E as [[A _] (t & _ & B1 & B2)].
      rewrite A, IH in *. split; [reflexivity|]. now exists t.
  Qed.
  (** So does the split; the loop is left for lack of time only after a failed test. *)
  Lemma split_tested s x s1 : bound_phase w I cf s = (Ok (inr x), s1) ->
    exists t, a_t s <= t /\ a_t s1 = S t /\ in_time w cf (a_start s) t.
  Proof.
    intro E. assert (W := tests_bound_phase _ _ s (since_self s)). apply (wp_run _ _ _ _ _ _ W) in E. destruct E as [[A _] (t & B & B1 & B2)].
    rewrite A in B2. exists t. auto.
  Qed.
  Lemma late_turn s s' : iteration w I cf s = (Ok TimeUp, s') ->
    exists t, a_t s <= t < a_t s' /\ ~ in_time w cf (a_start s) t.
  Proof.
    intro E. assert (W := tests_iteration _ _ s (since_self s)). apply (wp_run _ _ _ _ _ _ W) in E. exact (proj2 E).
  Qed.

  Lemma late_le st0 t0 t1 s : t0 <= t1 -> late st0 t1 s -> late st0 t0 s.
  Proof. intros H (t & A & B). exists t. split; [lia|exact B]. Qed.
  Lemma late_main_loop fuel : forall st0 t0 s s', since st0 t0 s -> main_loop w I cf fuel s = (Ok TimeUp, s') -> late st0 t0 s'.
  Proof.
    induction fuel as [|n IH]; intros st0 t0 s s' H E; cbn [main_loop] in E; [discriminate|]. unfold mbind in E.
    destruct (iteration w I cf s) as [[v|e] s1] eqn:E1; [|discriminate].
    assert (W := tests_iteration _ _ s H). apply (wp_run _ _ _ _ _ _ W) in E1. destruct E1 as [H1 H2].
    destruct v; try discriminate; [now apply (IH st0 t0 s1 s')|]. injection E as <-. exact H2.
  Qed.
  Lemma late_run fuel s : run w I cf fuel = (Ok TimeUp, s) -> exists t, 0 < t < a_t s /\ ~ in_time w cf (w_clock w 0) t.
  Proof.
    intro E. unfold run, mbind in E. destruct (construct w I cf (ast0 I)) as [[b|e] s0] eqn:E0; [|discriminate].
    assert (A0 := start_construct _ _ E0).
    assert (T0 : 0 < a_t s0).
    { assert (W := tm_construct w I cf (fun _ _ t => 0 < t) (fun _ _ t t' L X => Nat.lt_le_trans _ _ _ X L) (ast0 I)
        (fun t (L : 1 <= t) => L)). apply (wp_run _ _ _ _ _ _ W) in E0. exact E0. }
    unfold solve, mbind in E. destruct (prologue w I cf b s0) as [[v|e] s1] eqn:E1; [|discriminate].
    apply tests_prologue in E1 as [H1 H2]. rewrite A0 in H1, H2.
    assert (L : exists s2, late (w_clock w 0) (a_t s0) s2 /\ a_t s2 <= a_t s).
    { destruct v; try contradiction.
      - destruct (main_loop w I cf fuel s1) as [[v|e] s2] eqn:E2; [|discriminate].
        destruct v; [discriminate| |discriminate|].
        + exfalso. unfold epilogue, mbind in E. repeat (destruct (put w _ _) as [[?|?] ?]; try discriminate).
        + injection E as <-. exists s2. split; [|lia]. eapply late_main_loop; eassumption.
      - injection E as <-. exists s1. auto. }
    destruct L as (s2 & (t & L1 & L2) & L3). exists t. split; [lia|exact L2].
  Qed.

  (** ** The lower-bound model *)
  Hypothesis HN : forall r, (0 <= w_norm w r)%Q.
  Hypothesis HA : argsort_ok (w_argsort w).

  Definition cutv (lb : lbst) (LB : ext) : Prop :=
    length (lb_counter lb) = i_k I /\ (lb_prev lb = Fin (- 1000000) \/ ext_leb (lb_prev lb) LB = true) /\
    exists cuts, lb_good I cuts lb /\ Forall (fun v => ext_leb v LB = true) cuts.
  Definition cutting (s : ast) : Prop := cutv (a_lb s) (a_vLB s).

  Lemma cutv_mono lb LB LB' : ext_leb LB LB' = true -> cutv lb LB -> cutv lb LB'.
  Proof.
    intros H (A1 & A2 & cuts & A3 & A4). split; [exact A1|]. split.
    - destruct A2 as [A2|A2]; [now left|right]. eapply ext_leb_trans; eassumption.
    - exists cuts. split; [exact A3|]. eapply Forall_impl; [|exact A4]. cbv beta. intros a Ha. eapply ext_leb_trans; eassumption.
  Qed.
  Lemma cutv_save x lb LB : cutv lb LB -> cutv (save_feasible lb (get_feasible_scenarios (snd (check_feasibility (w_norm w) I x)))) LB.
  Proof.
    intros (A1 & A2 & A3). split; [|split; [exact A2|exact A3]].
    rewrite (check_feasibility_feasible (w_norm w) HN). unfold save_feasible. cbn [lb_counter].
    rewrite map_length, combine_length, map_length, seq_length, A1. lia.
  Qed.

  Lemma deterministic_asked x s : cutting s -> wp (fun _ _ => True) (deterministic_bound w I cf x) (fun yv s' =>
    cutting s' /\ a_vLB s' = a_vLB s /\ a_xLB s' = a_xLB s /\ exists m, a_t s' = S (S (S (a_t s))) /\
      lower_model I (a_vLB s) (lb_scen (a_lb s')) m /\ lb_read (w_solve w (S (S (a_t s))) m) = Ok yv) s.
  Proof.
    intros (C1 & C2 & cuts & C3 & C4). unfold deterministic_bound. apply wp_bind, wp_get.
    apply wp_bind, wp_lift; [|auto]. intros idx EI. apply wp_bind, wp_lift; [|auto]. intros sel ES.
    destruct (selected_scenarios _ _ _ _ idx) as [[sel'|]|e] eqn:EQ; cbn [rbind need] in ES; try discriminate. injection ES as <-.
    assert (LI : length idx = i_k I).
    { destruct (c_proj cf); [|destruct x; cbn in EI; [|discriminate]|discriminate]; injection EI as <-; [now rewrite map_length|].
      unfold violation_index. now rewrite map_length, seq_length. }
    destruct (selected_spec (w_argsort w) (uniform (i_k I)) (i_eps I) (i_k I) idx sel' HA (uniform_length _) LI EQ) as (_ & _ & ND & _).
    apply wp_bind, wp_lift; [|auto]. intros lb EL.
    destruct (lb_prepare_good I cuts (a_lb s) (a_vLB s) sel' C3 ND) as (lb' & E' & L1 & L2 & L3 & L4). rewrite EL in E'. injection E' as <-.
    set (cuts' := cuts ++ _) in L1.
    assert (C' : Forall (fun v => ext_leb v (a_vLB s) = true) cuts').
    { apply Forall_app. split; [exact C4|]. destruct (ext_leb (lb_prev (a_lb s)) (a_vLB s)); repeat constructor. apply ext_leb_refl'. }
    assert (CI : ext_leb (Fin (- 1000000)) (a_vLB s) = true -> In (a_vLB s) cuts').
    { intro H. apply in_or_app. right. assert (EB : ext_leb (lb_prev (a_lb s)) (a_vLB s) = true) by (destruct C2 as [->|C2]; assumption).
      rewrite EB. now left. }
    clearbody cuts'.
    apply wp_bind, wp_put; intros _; [exact Logic.I|]. apply wp_bind, wp_call; auto. intro NI. apply wp_lift; [|auto]. intros yv EY.
    split; [|split; [reflexivity|split; [reflexivity|]]].
    - split; [cbn; now rewrite L4|]. split; [right; cbn; rewrite L3; apply ext_leb_refl'|]. exists cuts'. auto.
    - exists (lb_model I lb). split; [reflexivity|]. split; [|exact EY].
      do 5 (split; [reflexivity|]). cbn [a_lb bump set_t set_lb]. split; [|split].
      + intros tau z H. now apply (lb_good_model I cuts' lb tau z L1) in H as [H _].
      + intros z H1 H2. apply (lb_good_model I cuts' lb 0 z L1). split; [exact H1|]. eapply Forall_impl; [|exact C']. cbv beta. intros a Ha.
        assert (Hz : ext_leb a (Fin (obj I z)) = true) by (eapply ext_leb_trans; eassumption).
        destruct a as [|q|]; cbn in Hz |- *; [exact Logic.I| |discriminate]. apply Qle_bool_iff in Hz. unfold obj in Hz. lra.
      + intros z H1 H2. apply (lb_good_model I cuts' lb 0 z L1) in H1 as [_ H1]. rewrite Forall_forall in H1. specialize (H1 _ (CI H2)).
        destruct (a_vLB s) as [|q|]; cbn in H1 |- *; [reflexivity| |contradiction]. apply Qle_bool_iff. unfold obj. lra.
  Qed.

  Ltac pt := repeat (pres_step; auto).

  Lemma cut_improve cands : pres cutting (improve_vlb w I cands).
  Proof.
    intros s H. unfold improve_vlb. apply wp_bind, wp_get.
    destruct (incumbent_bound _ _ _ _ _ _) as [[x v]|] eqn:E; [|exact H].
    apply incumbent_gain in E as [_ E].
    assert (EL : ext_leb (a_vLB s) (Fin v) = true). { eapply ext_leb_trans; [|exact E]. apply ext_add_le. lra. }
    apply wp_bind, wp_put; intros _; [exact H|]. apply wp_put; intros _; exact (cutv_mono _ _ _ EL H).
  Qed.

  (** Bounds and incumbent of the lower bound do not change before the lower-bound problem. *)
  Definition frozen (LB : ext) (x : option (list Q)) (s : ast) : Prop := a_vLB s = LB /\ a_xLB s = x /\ cutting s.
  Lemma frozen_upper LB x : pres (frozen LB x) (upper_bound_step w I cf).
  Proof.
    assert (HT : forall s t, frozen LB x s -> frozen LB x (set_t t s)) by (intros s t H; exact H).
    unfold upper_bound_step. apply pres_get; intro s0. apply pres_bind.
    { apply pres_if; [apply pres_lift|apply pres_partition_bound; exact HT]. }
    intros [[[y z] vo] vb]. apply pres_bind; [apply pres_available; exact HT|intro t]. apply pres_if; [apply pres_get; intro; apply pres_ret|].
    assert (HC := cutv_save y). destruct (check_feasibility (w_norm w) I y) as [ok f]. cbn [snd] in HC.
    apply pres_bind; [apply pres_put; auto|intro]. apply pres_bind; [apply pres_put; auto|intro]. apply pres_get; intro s1.
    apply pres_bind; [pt|intro]. apply pres_bind.
    { apply pres_put; [exact HT|]. intros s (A & B & C). split; [exact A|]. split; [exact B|]. exact (HC _ _ C). }
    intro. apply pres_bind; [|intro; apply pres_ret]. unfold store_info. pt.
  Qed.

  Lemma lower_asked x s : cutting s -> wp (fun _ _ => True) (lower_bound_step w I cf x) (fun _ s' =>
    cutting s' /\ exists m, S (S (a_t s)) < a_t s' /\ lower_model I (a_vLB s) (lb_scen (a_lb s')) m /\
      lower_update (w_solve w (S (S (a_t s))) m) (a_vLB s) (a_xLB s) (a_vLB s') (a_xLB s')) s.
  Proof.
    intro C. unfold lower_bound_step. eapply wp_bind_mono; [apply deterministic_asked, C|]. cbv beta. intros [y v] s1 (C1 & E1 & E2 & m & T1 & LM & RD).
    set (o := w_solve w (S (S (a_t s))) m) in *. set (k := S (S (a_t s))) in *.
    assert (RY : (o = Infeasible /\ y = None /\ v = (- 1000000)%Q) \/ exists p z b, o = Solved p z v b /\ y = Some p).
    { clearbody o. destruct o as [p z v' b| | |]; cbn in RD; try discriminate; injection RD as <- <-; [right; now exists p, z, b|left; auto]. }
    assert (Eo : o = w_solve w k m) by reflexivity. clearbody k o. clear RD C.
    set (F := fun s' : ast => lb_scen (a_lb s') = lb_scen (a_lb s1) /\ cutting s' /\
      lower_update o (a_vLB s) (a_xLB s) (a_vLB s') (a_xLB s')).
    set (G := fun s' : ast => F s' /\ k < a_t s').
    assert (GB : forall s', G s' -> G (bump s')). { intros s' [A B]. split; [exact A|cbn; lia]. }
    apply wp_bind, wp_get. eapply wp_bind_mono with (P := fun _ => G).
    - rewrite E1. unfold ext_ltb. destruct (ext_leb (Fin v) (a_vLB s)) eqn:EV; cbn [negb].
      + apply wp_ret. split; [|lia]. split; [reflexivity|]. split; [exact C1|]. exists y, v. split; [exact RY|right; rewrite E1, E2; auto].
      + assert (EL : ext_leb (a_vLB s1) (Fin v) = true). { rewrite E1. destruct (ext_leb_total (a_vLB s) (Fin v)) as [H|H]; [exact H|congruence]. }
        apply wp_bind, wp_put; intros _; [exact Logic.I|]. apply wp_put; intros _; [exact Logic.I|].
        split; [|cbn; lia]. split; [reflexivity|]. split; [exact (cutv_mono _ _ _ EL C1)|]. exists y, v. split; [exact RY|left; auto].
    - intros _ s2 H2. apply wp_bind. unfold gap_now. apply wp_bind, wp_get, wp_lift; [|auto]. intros g _. apply wp_bind.
      unfold store_info. apply wp_bind. unfold gap_now. apply wp_bind, wp_get, wp_lift; [|auto]. intros g' _. apply wp_bind, wp_clock.
      apply wp_put; intros _; [exact Logic.I|]. apply wp_ret. destruct H2 as [(A1 & A2 & A3) A4]. split; [exact A2|]. exists m.
      split; [cbn; lia|]. cbn [a_lb a_vLB a_xLB bump set_t set_log]. rewrite A1, <- Eo. split; [exact LM|exact A3].
  Qed.

  (** What the phase of the bounds asks. *)
  Definition asked_lower (s s1 : ast) : Prop := exists t m, a_t s < t < a_t s1 /\ in_time w cf (a_start s) (t - 3) /\ a_t s <= t - 3 /\
    lower_model I (a_vLB s) (lb_scen (a_lb s1)) m /\
    lower_update (w_solve w t m) (a_vLB s) (a_xLB s) (a_vLB s1) (a_xLB s1).

  Lemma bound_phase_asked s : cutting s -> wp (fun _ _ => True) (bound_phase w I cf) (fun r s1 =>
    cutting s1 /\ (r <> inl Feasible -> r <> inl TimeUp -> asked_lower s s1)) s.
  Proof.
    intro C. rewrite bound_phase_eq.
    set (P := fun s' : ast => frozen (a_vLB s) (a_xLB s) s' /\ since (a_start s) (a_t s) s').
    assert (PP : forall A (m : M A), pres (frozen (a_vLB s) (a_xLB s)) m -> pres (since (a_start s) (a_t s)) m -> pres P m).
    { intros A m H1 H2 s' [B1 B2]. specialize (H1 s' B1). specialize (H2 s' B2). unfold wp in *. destruct (m s') as [[]]; split; assumption. }
    assert (HT : forall s' t, frozen (a_vLB s) (a_xLB s) s' -> frozen (a_vLB s) (a_xLB s) (set_t t s')) by (intros s' t H; exact H).
    assert (P0 : P s). { split; [split; [reflexivity|split; [reflexivity|exact C]]|apply since_self]. }
    unfold asked_lower. change (wp (fun _ _ => True) (mbind gap_now (fun _ => mbind (big_M w I cf) (fun _ => mbind (upper_bound_step w I cf) (fun '(x, ok) => after_upper w I cf x ok))))
      (fun r s1 => cutting s1 /\ (r <> inl Feasible -> r <> inl TimeUp -> asked_lower s s1)) s).
    eapply wp_bind_mono; [apply (wp_weak _ P); [apply PP; apply pres_gap|exact P0]|]. cbv beta. intros _ s1 H1.
    eapply wp_bind_mono; [apply (wp_weak _ P); [apply PP; [apply pres_big_M; auto|apply tm_big_M; apply since_M]|exact H1]|]. cbv beta. clear s1 H1. intros _ s1 H1.
    eapply wp_bind_mono; [apply (wp_weak _ P); [apply PP; [apply frozen_upper|apply tm_upper; [apply since_M|apply since_L]]|exact H1]|]. cbv beta.
    clear s1 H1. intros [x ok] s1 [(A1 & A2 & A3) [B1 B2]]. unfold after_upper.
    destruct ok; [apply wp_ret; split; [exact A3|]; intro N; now destruct N|].
    apply wp_bind, wp_available. destruct (Qle_bool _ 0) eqn:ET; [apply wp_ret; split; [exact A3|]; intros _ N; now destruct N|].
    apply test_false in ET.
    eapply wp_bind_mono; [apply lower_asked; exact A3|]. cbv beta. intros g s2 (D1 & m & D2 & D3 & D4).
    change (a_vLB (bump s1)) with (a_vLB s1) in *. change (a_xLB (bump s1)) with (a_xLB s1) in *. change (a_t (bump s1)) with (S (a_t s1)) in *.
    rewrite A1, A2, B1 in *.
    assert (G : forall t, t <= a_t s2 -> asked_lower s s2).
    { intros _ _. exists (S (S (S (a_t s1)))), m. split; [lia|]. replace (S (S (S (a_t s1))) - 3) with (a_t s1) by lia.
      split; [exact ET|]. split; [lia|]. split; [exact D3|exact D4]. }
    assert (G2 := G 0 (Nat.le_0_l _)). clear G.
    destruct (gap_leb g (c_gap cf)); [apply wp_ret; split; [exact D1|intros _ _; exact G2]|].
    apply wp_bind, wp_available. assert (G3 : asked_lower s (bump s2)).
    { destruct G2 as (t & m' & X1 & X2). exists t, m'. split; [cbn; lia|exact X2]. }
    clear ET. destruct (Qle_bool _ 0); apply wp_ret; (split; [exact D1|]); [intros _ N; now destruct N|intros _ _; exact G3].
  Qed.

  Lemma cut_after r : pres cutting (after_bounds w I cf r).
  Proof.
    unfold after_bounds. destruct r; [apply pres_ret|]. apply pres_bind; [apply pres_split0; auto; apply cut_improve|]. intros [R nc].
    apply pres_bind; [apply pres_merge0; auto; apply cut_improve|]. intros _. unfold next_iteration. pt.
  Qed.
  Lemma head_cutting s : head_reach w I cf s -> cutting s.
  Proof.
    induction 1 as [b s0 s E1 E2|s s' H IH E].
    - assert (H0 : cutting (ast0 I)).
      { split; [apply repeat_length|]. split; [now left|]. exists []. split; [apply lb_init_good|constructor]. }
      assert (W1 : wp (fun _ => cutting) (construct w I cf) (fun _ => cutting) (ast0 I)) by (apply construct_frame; auto).
      apply (wp_run _ _ _ _ _ _ W1) in E1.
      assert (W2 : wp (fun _ => cutting) (prologue w I cf b) (fun _ => cutting) s0) by (apply prologue_frame; auto; apply cut_improve).
      apply (wp_run _ _ _ _ _ _ W2) in E2. exact E2.
    - rewrite iteration_eq in E. unfold mbind in E. destruct (bound_phase w I cf s) as [[r|e] s1] eqn:E1; [|discriminate].
      assert (W := bound_phase_asked s IH). apply (wp_run _ _ _ _ _ _ W) in E1. destruct E1 as [E1 _].
      assert (W2 := cut_after r s1 E1). apply (wp_run _ _ _ _ _ _ W2) in E. exact E.
  Qed.
  Lemma asked_turn s r s1 : head_reach w I cf s -> bound_phase w I cf s = (Ok r, s1) -> r <> inl Feasible -> r <> inl TimeUp ->
    exists t m, a_t s < t < a_t s1 /\ a_t s <= t - 3 /\ in_time w cf (a_start s) (t - 3) /\
      lower_model I (a_vLB s) (lb_scen (a_lb s1)) m /\ lower_update (w_solve w t m) (a_vLB s) (a_xLB s) (a_vLB s1) (a_xLB s1).
  Proof.
    intros H E N1 N2. apply head_cutting in H. assert (W := bound_phase_asked s H). apply (wp_run _ _ _ _ _ _ W) in E. destruct E as [_ E].
    destruct (E N1 N2) as (t & m & A1 & A2 & A3 & A4 & A5). exists t, m. auto.
  Qed.
End Log.
