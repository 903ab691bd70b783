(** Proofs for C85: a calculus for the models solved by a computation. *)
From Coq Require Import Sorting.Sorted.
From Verif Require Import Base BaseFacts Spec Instance InstanceFacts PartitionFacts OptModels Initial Bounds Refine CostRefine Merge
  MergeFacts Knapsack Violations BigM Adaptive AdaptiveSpec AdaptiveWp AdaptiveStruct Milp SolveSpec.

(** ** The counter of calls never decreases *)
Definition grows {A} (m : M A) : Prop := forall s, a_t s <= a_t (snd (m s)).
Lemma grows_ret {A} (a : A) : grows (mret a). Proof. intro s. cbn. lia. Qed.
Lemma grows_raise {A} e : grows (@mraise A e). Proof. intro s. cbn. lia. Qed.
Lemma grows_lift {A} (r : res A) : grows (lift r). Proof. intro s. cbn. lia. Qed.
Lemma grows_get : grows mget. Proof. intro s. cbn. lia. Qed.
Lemma grows_bind {A B} (m : M A) (f : A -> M B) : grows m -> (forall a, grows (f a)) -> grows (mbind m f).
Proof. intros H1 H2 s. unfold mbind. specialize (H1 s). destruct (m s) as [[a|e] s']; cbn in *; [|exact H1]. specialize (H2 a s'). lia. Qed.
Lemma grows_put w f : (forall s, a_t (f s) = a_t s) -> grows (put w f).
Proof. intros H s. unfold put, mbind, tick. rewrite H. destruct (w_intr w (a_t s)); cbn; rewrite H; lia. Qed.
Lemma grows_clock w : grows (clock w). Proof. intro s. cbn. lia. Qed.
Lemma grows_tick w : grows (tick w). Proof. intro s. unfold tick. destruct (w_intr w (a_t s)); cbn; lia. Qed.
Lemma grows_call w m : grows (call w m).
Proof. apply grows_bind; [apply grows_tick|]. intros _ s. cbn. lia. Qed.
Ltac grow := repeat first
  [ apply grows_ret | apply grows_raise | apply grows_lift | apply grows_get | apply grows_clock | apply grows_call
  | apply grows_put; intro; reflexivity
  | apply grows_bind; [|intro]
  | match goal with |- grows (match ?x with _ => _ end) => destruct x end ].

(** ** Models solved by a computation *)
Record asked {A} (w : world) (L : list (nat * model)) (m : world -> M A) (s : ast) : Prop := mkAsked {
  ak_mono : a_t s <= a_t (snd (m w s));
  ak_time : Forall (fun q => a_t s <= fst q < a_t (snd (m w s))) L;
  ak_sort : StronglySorted lt (map fst L);
  ak_same : forall f, (forall t mm, In (t, mm) L -> f t mm = w_solve w t mm) -> m (with_solve w f) s = m w s;
  ak_stop : forall f t mm, In (t, mm) L -> (forall t' m', In (t', m') L -> t' < t -> f t' m' = w_solve w t' m') ->
    f t mm = Interrupted -> fst (m (with_solve w f) s) = Err KeyboardInterrupt
}.
Definition asks {A} (w : world) (k : nat) (m : world -> M A) (s : ast) : Prop := exists L, length L <= k /\ asked w L m s.

Lemma asks_le {A} w k k' (m : world -> M A) s : asks w k m s -> k <= k' -> asks w k' m s.
Proof. intros (L & H & HA) Hk. exists L. split; [lia|exact HA]. Qed.
Lemma asks_silent {A} w k (m : world -> M A) s : grows (m w) -> (forall f, m (with_solve w f) s = m w s) -> asks w k m s.
Proof.
  intros H1 H2. exists []. split; [cbn; lia|]. constructor; [apply H1|constructor|constructor|auto|]. intros f t mm [].
Qed.
Lemma sorted_app l l' b : StronglySorted lt l -> StronglySorted lt l' -> Forall (fun a => a < b) l -> Forall (fun a => b <= a) l' ->
  StronglySorted lt (l ++ l').
Proof.
  intros H1 H2 H3 H4. induction H1 as [|a l H1 IH HF]; [exact H2|]. inversion H3; subst. cbn. constructor; [auto|].
  apply Forall_app. split; [exact HF|]. eapply Forall_impl; [|exact H4]. cbn. intros; lia.
Qed.
Lemma asked_bind {A B} w L1 L2 (m : world -> M A) (f : world -> A -> M B) s a s' :
  asked w L1 m s -> m w s = (Ok a, s') -> asked w L2 (fun w => f w a) s' -> asked w (L1 ++ L2) (fun w => mbind (m w) (f w)) s.
Proof.
  intros [A1 A2 A3 A4 A5] E [B1 B2 B3 B4 B5]. rewrite E in A1, A2. cbn [snd] in A1, A2.
  assert (EB : mbind (m w) (f w) s = f w a s') by (unfold mbind; now rewrite E).
  rewrite Forall_forall in A2, B2. constructor.
  - rewrite EB. lia.
  - rewrite EB. apply Forall_app. split; apply Forall_forall; intros q Hq; [apply A2 in Hq|apply B2 in Hq]; lia.
  - rewrite map_app. apply sorted_app with (b := a_t s'); auto.
    + apply Forall_forall. intros t Ht. apply in_map_iff in Ht as (q & <- & Hq). apply A2 in Hq. lia.
    + apply Forall_forall. intros t Ht. apply in_map_iff in Ht as (q & <- & Hq). apply B2 in Hq. lia.
  - intros g Hg. rewrite EB. unfold mbind. rewrite A4, E by (intros; apply Hg, in_or_app; now left).
    apply B4. intros; apply Hg, in_or_app; now right.
  - intros g t mm Hq Hb HI. apply in_app_or in Hq as [Hq|Hq].
    + assert (S1 := A5 g t mm Hq (fun t' m' H H' => Hb t' m' (in_or_app _ _ _ (or_introl H)) H') HI).
      unfold mbind. destruct (m (with_solve w g) s) as [[b|e] s2]; cbn in S1; [discriminate|]. cbn. congruence.
    + unfold mbind. rewrite A4, E.
      * apply (B5 g t mm Hq); [|exact HI]. intros t' m' H H'. apply Hb; [apply in_or_app; now right|exact H'].
      * intros t' m' H. apply Hb; [apply in_or_app; now left|]. apply A2 in H. apply B2 in Hq. cbn in *. lia.
Qed.
Lemma asked_fails {A B} w L (m : world -> M A) (f : world -> A -> M B) s e s' :
  asked w L m s -> m w s = (Err e, s') -> asked w L (fun w => mbind (m w) (f w)) s.
Proof.
  intros [A1 A2 A3 A4 A5] E. rewrite E in A1, A2.
  assert (EB : mbind (m w) (f w) s = (Err e, s')) by (unfold mbind; now rewrite E).
  constructor; rewrite ?EB; try assumption.
  - intros g Hg. unfold mbind. now rewrite A4, E by assumption.
  - intros g t mm Hq Hb HI. specialize (A5 g t mm Hq Hb HI). unfold mbind.
    destruct (m (with_solve w g) s) as [[b|e'] s2]; cbn in A5; [discriminate|]. cbn. congruence.
Qed.
Lemma asks_bind {A B} w k1 k2 k (m : world -> M A) (f : world -> A -> M B) s : asks w k1 m s ->
  (forall a s', m w s = (Ok a, s') -> asks w k2 (fun w => f w a) s') -> k1 + k2 <= k -> asks w k (fun w => mbind (m w) (f w)) s.
Proof.
  intros (L1 & K1 & H1) H2 Hk. destruct (m w s) as [[a|e] s'] eqn:E.
  - destruct (H2 a s' eq_refl) as (L2 & K2 & H3). exists (L1 ++ L2). split; [rewrite app_length; lia|]. eapply asked_bind; eauto.
  - exists L1. split; [lia|]. eapply asked_fails; eauto.
Qed.
(** A step without models, and a last step without models. *)
Lemma asks_skip {A B} w k (m : world -> M A) (f : world -> A -> M B) s : grows (m w) -> (forall g, m (with_solve w g) s = m w s) ->
  (forall a s', m w s = (Ok a, s') -> asks w k (fun w => f w a) s') -> asks w k (fun w => mbind (m w) (f w)) s.
Proof. intros H1 H2 H3. apply asks_bind with (k1 := 0) (k2 := k); [now apply asks_silent|exact H3|lia]. Qed.
Lemma asks_call w mm s : asks w 1 (fun w => call w mm) s.
Proof.
  unfold call. apply asks_skip; [apply grows_tick|reflexivity|]. intros a s' _. exists [(a_t s', mm)]. split; [cbn; lia|]. constructor.
  - cbn. lia.
  - repeat constructor; cbn; lia.
  - repeat constructor.
  - intros f Hf. cbn. rewrite Hf by now left. reflexivity.
  - intros f t m' [E|[]] _ HI. injection E as <- <-. cbn. now rewrite HI.
Qed.
Lemma asks_last {A B} w k (m : world -> M A) (f : world -> A -> M B) s : asks w k m s -> (forall a, grows (f w a)) ->
  (forall g a s', f (with_solve w g) a s' = f w a s') -> asks w k (fun w => mbind (m w) (f w)) s.
Proof. intros H1 H2 H3. apply asks_bind with (k1 := k) (k2 := 0); [exact H1| |lia]. intros a s' _. apply asks_silent; auto. Qed.
Ltac skip := apply asks_skip; [grow|intro; reflexivity|].
Ltac quiet := apply asks_silent; [grow|intro; reflexivity].

Section Ask.
  Variable I : inst.
  Variable cf : cfg.
  Variable w : world.

  Lemma asks_subset S s : asks w 1 (fun w => subset_cost w I S) s.
  Proof. unfold subset_cost. apply asks_last; [apply asks_call| |reflexivity]. intro o. grow. Qed.
  Lemma asks_mmap {A B} (f : world -> A -> M B) : (forall a s, asks w 1 (fun w => f w a) s) ->
    forall l s, asks w (length l) (fun w => mmap (f w) l) s.
  Proof.
    intro H. induction l as [|a l IH]; intro s; cbn [mmap length]; [quiet|].
    apply asks_bind with (k1 := 1) (k2 := length l); [apply H| |lia]. intros b s' _. apply asks_last; [apply IH| |reflexivity]. intro. grow.
  Qed.
  Lemma asks_improve k c s : asks w k (fun w => improve_vlb w I c) s.
  Proof. unfold improve_vlb. quiet. Qed.
  Lemma asks_scenarios s : asks w (i_k I) (fun w => all_scenario_costs w I) s.
  Proof.
    unfold all_scenario_costs. apply asks_last; [|intro; grow|reflexivity]. eapply asks_le.
    - apply (asks_mmap (fun w s => subset_cost w I [s])). intros. apply asks_subset.
    - now rewrite seq_length.
  Qed.
  Lemma asks_setup s : asks w (first_costs I (c_init cf)) (fun w => setup_initial_partition w I cf) s.
  Proof.
    unfold setup_initial_partition, first_costs. skip. intros _ s1 _. skip. intros _ s2 _.
    destruct (c_init cf).
    - quiet.
    - apply asks_last; [apply asks_scenarios|intro; grow|reflexivity].
    - quiet.
  Qed.
  Lemma asks_construct s : asks w (first_costs I (c_init cf)) (fun w => construct w I cf) s.
  Proof.
    unfold construct. skip. intros now s1 _. skip. intros _ s2 _. skip. intros _ s3 _.
    apply asks_last; [apply asks_setup|intro; grow|reflexivity].
  Qed.
  Lemma asks_prologue num s : asks w (length (a_part s)) (fun w => prologue w I cf num) s.
  Proof.
    unfold prologue. skip. intros s1 s2 E. injection E as <- <-. unfold partition_cost.
    apply asks_last; [apply asks_last; [apply (asks_mmap (fun w => subset_cost w I)); intros; apply asks_subset|intro; grow|reflexivity]| |reflexivity].
    intro. unfold improve_vlb, available. grow.
  Qed.

  (** ** Big M's *)
  Lemma belotti_row_asked V v c : forall l t r t', belotti_row (w_solve w) V v c l t = (r, t') -> t <= t' /\
    exists L, length L <= length l /\ Forall (fun q => t <= fst q < t') L /\ StronglySorted lt (map fst L) /\
      (forall f, (forall t mm, In (t, mm) L -> f t mm = w_solve w t mm) -> belotti_row f V v c l t = (r, t')) /\
      (forall f t0 mm, In (t0, mm) L -> (forall t' m', In (t', m') L -> t' < t0 -> f t' m' = w_solve w t' m') ->
        f t0 mm = Interrupted -> fst (belotti_row f V v c l t) = Err KeyboardInterrupt).
  Proof.
    induction l as [|i l IH]; intros t r t' E; cbn [belotti_row] in E.
    { injection E as <- <-. split; [lia|]. exists []. split; [cbn; lia|]. split; [constructor|]. split; [constructor|]. split; [reflexivity|intros f t0 mm []]. }
    set (mm0 := big_m_knapsack_model V v c i) in *.
    destruct (belotti_mip (w_solve w t mm0)) as [b|e] eqn:EB.
    - destruct (belotti_row (w_solve w) V v c l (S t)) as [r1 t1] eqn:E1. injection E as <- <-.
      destruct (IH _ _ _ E1) as (T1 & L & K1 & K2 & K3 & K4 & K5). split; [lia|]. exists ((t, mm0) :: L). split; [cbn; lia|].
      split. { constructor; [cbn; lia|]. eapply Forall_impl; [|exact K2]. cbn. intros; lia. }
      split. { cbn. constructor; [exact K3|]. apply Forall_forall. intros x Hx. apply in_map_iff in Hx as (q & <- & Hq).
        rewrite Forall_forall in K2. apply K2 in Hq. lia. }
      split.
      + intros f Hf. cbn [belotti_row]. fold mm0. rewrite (Hf t mm0) by now left. rewrite EB, K4; [reflexivity|]. intros; apply Hf; now right.
      + intros f t0 mm Hq Hb HI. cbn [belotti_row]. fold mm0. destruct Hq as [Hq|Hq].
        * injection Hq as <- <-. rewrite HI. reflexivity.
        * rewrite (Hb t mm0); [|now left|rewrite Forall_forall in K2; apply K2 in Hq; cbn in Hq; lia].
          rewrite EB. assert (S1 := K5 f t0 mm Hq (fun t' m' H H' => Hb t' m' (or_intror H) H') HI).
          destruct (belotti_row f V v c l (S t)) as [r2 t2]. cbn in S1. subst r2. reflexivity.
    - injection E as <- <-. split; [lia|]. exists [(t, mm0)]. split; [cbn; lia|]. split; [repeat constructor; cbn; lia|].
      split; [repeat constructor|]. split.
      + intros f Hf. cbn [belotti_row]. fold mm0. rewrite (Hf t mm0) by now left. now rewrite EB.
      + intros f t0 mm [Hq|[]] _ HI. injection Hq as <- <-. cbn [belotti_row]. fold mm0. rewrite HI. reflexivity.
  Qed.
  Lemma belotti_rows_asked V v : forall l t r t', belotti_rows (w_solve w) V v l t = (r, t') -> t <= t' /\
    exists L, length L <= list_sum (map (v_m V) l) /\ Forall (fun q => t <= fst q < t') L /\ StronglySorted lt (map fst L) /\
      (forall f, (forall t mm, In (t, mm) L -> f t mm = w_solve w t mm) -> belotti_rows f V v l t = (r, t')) /\
      (forall f t0 mm, In (t0, mm) L -> (forall t' m', In (t', m') L -> t' < t0 -> f t' m' = w_solve w t' m') ->
        f t0 mm = Interrupted -> fst (belotti_rows f V v l t) = Err KeyboardInterrupt).
  Proof.
    induction l as [|c l IH]; intros t r t' E; cbn [belotti_rows] in E.
    { injection E as <- <-. split; [lia|]. exists []. split; [cbn; lia|]. split; [constructor|]. split; [constructor|]. split; [reflexivity|intros f t0 mm []]. }
    destruct (belotti_row (w_solve w) V v c (seq 0 (v_m V c)) t) as [r1 t1] eqn:E1.
    destruct (belotti_row_asked _ _ _ _ _ _ _ E1) as (T1 & L1 & K1 & K2 & K3 & K4 & K5). rewrite seq_length in K1.
    destruct r1 as [row|e].
    - destruct (belotti_rows (w_solve w) V v l t1) as [rs t2] eqn:E2. injection E as <- <-.
      destruct (IH _ _ _ E2) as (T2 & L2 & J1 & J2 & J3 & J4 & J5). split; [lia|]. exists (L1 ++ L2).
      rewrite Forall_forall in K2, J2. split; [rewrite app_length; change (list_sum (map (v_m V) (c :: l))) with (v_m V c + list_sum (map (v_m V) l)); lia|]. split.
      { apply Forall_app. split; apply Forall_forall; intros q Hq; [apply K2 in Hq|apply J2 in Hq]; lia. }
      split. { rewrite map_app. apply sorted_app with (b := t1); auto.
        + apply Forall_forall. intros x Hx. apply in_map_iff in Hx as (q & <- & Hq). apply K2 in Hq. lia.
        + apply Forall_forall. intros x Hx. apply in_map_iff in Hx as (q & <- & Hq). apply J2 in Hq. lia. }
      split.
      + intros f Hf. cbn [belotti_rows]. rewrite K4 by (intros; apply Hf, in_or_app; now left).
        rewrite J4 by (intros; apply Hf, in_or_app; now right). reflexivity.
      + intros f t0 mm Hq Hb HI. cbn [belotti_rows]. apply in_app_or in Hq as [Hq|Hq].
        * assert (S1 := K5 f t0 mm Hq (fun t' m' H H' => Hb t' m' (in_or_app _ _ _ (or_introl H)) H') HI).
          destruct (belotti_row f V v c (seq 0 (v_m V c)) t) as [r2 t3]. cbn in S1. subst r2. reflexivity.
        * rewrite K4.
          2:{ intros t' m' H. apply Hb; [apply in_or_app; now left|]. apply K2 in H. apply J2 in Hq. cbn in *. lia. }
          assert (S1 := J5 f t0 mm Hq (fun t' m' H H' => Hb t' m' (in_or_app _ _ _ (or_intror H)) H') HI).
          destruct (belotti_rows f V v l t1) as [r2 t3]. cbn in S1. subst r2. reflexivity.
    - injection E as <- <-. split; [lia|]. exists L1. split; [change (list_sum (map (v_m V) (c :: l))) with (v_m V c + list_sum (map (v_m V) l)); lia|]. split; [exact K2|]. split; [exact K3|]. split.
      + intros f Hf. cbn [belotti_rows]. now rewrite K4 by exact Hf.
      + intros f t0 mm Hq Hb HI. cbn [belotti_rows]. specialize (K5 f t0 mm Hq Hb HI).
        destruct (belotti_row f V v c (seq 0 (v_m V c)) t) as [r2 t3]. cbn in K5. subst r2. reflexivity.
  Qed.
  Definition belotti_step (V : ast -> view) (v : ast -> ext) (nb : ast -> nat) (w : world) : M (list (list Q)) :=
    fun s => let '(r, t) := belotti_all (w_argsort w) (w_solve w) (V s) (v s) (nb s) (a_t s) in (r, set_t t s).
  Lemma asks_belotti V v nb s k : (integer_vars (V s) = true -> list_sum (map (v_m (V s)) (seq 0 (nb s))) <= k) ->
    asks w k (belotti_step V v nb) s.
  Proof.
    intro HK. unfold belotti_step, belotti_all. destruct (integer_vars (V s)) eqn:EI.
    - destruct (belotti_rows (w_solve w) (V s) (v s) (seq 0 (nb s)) (a_t s)) as [r t] eqn:E.
      destruct (belotti_rows_asked _ _ _ _ _ _ E) as (T1 & L & K1 & K2 & K3 & K4 & K5).
      specialize (HK eq_refl). exists L. split; [lia|].
      assert (EW : (if integer_vars (V s) then belotti_rows (w_solve w) (V s) (v s) (seq 0 (nb s)) (a_t s)
        else (rmap (fun s0 => rmap (fun i => belotti_cont (w_argsort w) (V s) s0 i (v s)) (seq 0 (v_m (V s) s0))) (seq 0 (nb s)), a_t s)) = (r, t))
        by (rewrite EI; exact E).
      constructor.
      + rewrite EW. cbn. exact T1.
      + rewrite EW. cbn. exact K2.
      + exact K3.
      + intros f Hf. rewrite EW, EI. cbn [w_solve with_solve]. now rewrite K4 by exact Hf.
      + intros f t0 mm Hq Hb HI. rewrite EI. cbn [w_solve with_solve]. specialize (K5 f t0 mm Hq Hb HI).
        destruct (belotti_rows f (V s) (v s) (seq 0 (nb s)) (a_t s)) as [r2 t2]. exact K5.
    - exists []. split; [cbn; lia|]. constructor; rewrite ?EI; cbn; auto; try constructor. intros f t mm [].
  Qed.
End Ask.
