(** Proofs for C89. *)
From Verif Require Import Base BaseFacts Spec Instance InstanceFacts OptModels Initial Bounds Refine CostRefine Merge MergeFacts
  Knapsack Violations BigM Adaptive AdaptiveSpec AdaptiveWp StopSpec StopFacts StopRuns TurnsSpec.

(** ** The loop of the random refiner *)
Section Passes.
  Variable perm : nat -> nat -> list nat.
  Variables (flags : list bool) (inf : list nat) (mu : nat).
  Local Notation loop := (fun fuel st t => random_loop fuel perm flags inf mu st t).
  Lemma loop_more : forall n n' st t, n <= n' -> loop n st t = loop n' st t \/ loop n st t = Err NonTermination.
  Proof.
    induction n as [|n IH]; intros n' st t L.
    - cbn [random_loop]. destruct (r_cnt st <? mu) eqn:E; [now right|left]. destruct n'; cbn [random_loop]; rewrite E; reflexivity.
    - destruct n' as [|n']; [lia|]. cbn [random_loop]. destruct (r_cnt st <? mu); [|now left].
      destruct (traverse _ _ _ _ _ _ _) as [[st' t']|e]; cbn [rbind]; [apply IH; lia|now left].
  Qed.
  Lemma passes_loop st t o : passes perm flags inf mu st t o -> exists n, loop n st t = o.
  Proof.
    induction 1 as [st t E|st t E|st t e L E|st t st1 t1 o L E _ [n IH]].
    - exists 0. cbn [random_loop]. subst mu. rewrite Nat.ltb_irrefl, Nat.eqb_refl. reflexivity.
    - exists 0. cbn [random_loop]. rewrite (proj2 (Nat.ltb_ge _ _)) by lia. rewrite (proj2 (Nat.eqb_neq _ _)) by lia. reflexivity.
    - exists 1. cbn [random_loop]. rewrite (proj2 (Nat.ltb_lt _ _) L), E. reflexivity.
    - exists (S n). cbn [random_loop]. rewrite (proj2 (Nat.ltb_lt _ _) L), E. exact IH.
  Qed.
  Lemma loop_passes : forall n st t o, loop n st t = o -> o <> Err NonTermination -> passes perm flags inf mu st t o.
  Proof.
    induction n as [|n IH]; intros st t o E N; cbn [random_loop] in E; destruct (r_cnt st <? mu) eqn:EC.
    - now subst o.
    - apply Nat.ltb_ge in EC. destruct (r_cnt st =? mu) eqn:EM; cbn in E; subst o.
      + apply P_end. now apply Nat.eqb_eq.
      + apply P_assert. apply Nat.eqb_neq in EM. lia.
    - apply Nat.ltb_lt in EC. destruct (traverse _ _ _ _ _ _ _) as [[st' t']|e] eqn:ET; cbn in E.
      + eapply P_next; eauto.
      + subst o. now apply P_raise.
    - apply Nat.ltb_ge in EC. destruct (r_cnt st =? mu) eqn:EM; cbn in E; subst o.
      + apply P_end. now apply Nat.eqb_eq.
      + apply P_assert. apply Nat.eqb_neq in EM. lia.
  Qed.
  Lemma random_while st t o : o <> Err NonTermination -> (exists n, loop n st t = o) <-> passes perm flags inf mu st t o.
  Proof. intro N. split; [intros [n E]; now apply loop_passes with n|apply passes_loop]. Qed.
End Passes.

(** ** The main loop *)
Section Loop.
  Variable w : world.
  Variable I : inst.
  Variable cf : cfg.
  Lemma turns_loop s r s' : turns w I cf s r s' -> exists fuel, main_loop w I cf fuel s = (r, s').
  Proof.
    induction 1 as [s v s' E N|s e s' E|s s1 r s' E _ [n IH]].
    - exists 1. cbn [main_loop]. unfold mbind. rewrite E. destruct v; [congruence|reflexivity..].
    - exists 1. cbn [main_loop]. unfold mbind. now rewrite E.
    - exists (S n). cbn [main_loop]. unfold mbind. now rewrite E.
  Qed.
  Lemma loop_turns : forall fuel s r s', main_loop w I cf fuel s = (r, s') -> r <> Err NonTermination -> turns w I cf s r s'.
  Proof.
    induction fuel as [|n IH]; intros s r s' E N; cbn [main_loop] in E; [unfold mraise in E; injection E as <- _; congruence|].
    unfold mbind in E. destruct (iteration w I cf s) as [[v|e] s1] eqn:EI; [|injection E as <- <-; now apply T_raise].
    destruct v; try (unfold mret in E; injection E as <- <-; apply T_end; [exact EI|discriminate]).
    eapply T_next; [exact EI|]. now apply IH.
  Qed.
  Lemma main_while s r s' : r <> Err NonTermination -> (exists fuel, main_loop w I cf fuel s = (r, s')) <-> turns w I cf s r s'.
  Proof. intro N. split; [intros [n E]; now apply loop_turns with n|apply turns_loop]. Qed.
End Loop.

(** ** Larger bounds *)
Section Grow.
  Variable w : world.
  Variable I : inst.
  Variable cf : cfg.
  Variables n n' : nat.
  Hypothesis LE : n <= n'.
  Local Notation cf1 := (with_rounds cf n).
  Local Notation cf2 := (with_rounds cf n').
  Definition grow {A} (k : nat) (m m' : M A) (s : ast) : Prop := m s = m' s \/ (fst (m s) = Err NonTermination /\ ahead k (snd (m s)) (snd (m' s))).
  Definition up {A} (k : nat) (m : M A) : Prop := forall s, ahead k s (snd (m s)).
  Lemma up_okk {A} k (m : world -> M A) : (forall s, okk w (w_intr w) k m s) -> up k (m w).
  Proof. intros H s. apply H. Qed.
  Lemma grow_bind {A B} k1 k2 k (m m' : M A) (f f' : A -> M B) s : grow k1 m m' s -> (forall a s, grow k2 (f a) (f' a) s) -> (forall a, up k2 (f' a)) ->
    k1 + k2 <= k -> grow k (mbind m f) (mbind m' f') s.
  Proof.
    intros [E|[E H]] HF U L; unfold grow, mbind.
    - rewrite E. destruct (m' s) as [[a|e] s1]; [|now left]. destruct (HF a s1) as [F|[F1 F2]]; [now left|right]. split; [exact F1|eapply ahead_le; [exact F2|lia]].
    - right. destruct (m s) as [[a|e] s1]; [discriminate|]. cbn [fst snd] in *. split; [now injection E as ->|].
      destruct (m' s) as [[a|e'] s2]; cbn [snd] in *; [|eapply ahead_le; [exact H|lia]].
      eapply ahead_le; [eapply ahead_trans; [exact H|apply U]|exact L].
  Qed.
  Lemma grow_same {A} k (m : M A) s : grow k m m s. Proof. now left. Qed.

  Lemma grow_pre {A B} k (m : M A) (f f' : A -> M B) s : (forall a s, grow k (f a) (f' a) s) -> grow k (mbind m f) (mbind m f') s.
  Proof. intro H. unfold grow, mbind. destruct (m s) as [[a|e] s1]; [apply H|now left]. Qed.

  Lemma refine_more f t old : refine_random n (w_perm w) I f t old = refine_random n' (w_perm w) I f t old \/
    refine_random n (w_perm w) I f t old = Err NonTermination.
  Proof.
    unfold refine_random, refine_with. destruct (find_infeasible_subsets old (f_infeasible f)) as [u v].
    destruct (number_of_splits I (length v)) as [mu|e]; cbn [rbind]; [|now left].
    destruct (loop_more (w_perm w) (f_flags f) (f_infeasible f) mu n n' (mkR old [] 0) t LE) as [E|E]; cbn beta in E; rewrite E; [now left|now right].
  Qed.
  Lemma grow_refine s : grow 0 (refine w I cf1) (refine w I cf2) s.
  Proof.
    unfold refine. cbn [c_split c_acc c_fuel with_rounds]. apply grow_pre. intros s0 s1. apply grow_pre. intros f s2.
    destruct (c_split cf); [|apply grow_same..]. destruct (c_acc cf); [apply grow_same|].
    destruct (refine_more f (a_perm s0) (a_part s0)) as [E|E]; rewrite E; [apply grow_same|].
    right. split; [reflexivity|].
    change (ahead 0 s2 (snd (mbind (lift (refine_random n' (w_perm w) I f (a_perm s0) (a_part s0))) (fun '(R, t) => put w (set_perm t) ;;; mret R) s2))).
    apply (up_okk 0 (fun w0 => mbind (lift (refine_random n' (w_perm w) I f (a_perm s0) (a_part s0))) (fun '(R, t) => put w0 (set_perm t) ;;; mret R))).
    intro s3. apply okk_last; [flat|]. intros [R t] s4. walk. all: intros ? H; exact H.
  Qed.
  Lemma HS : forall t, w_intr w t = true -> w_intr w t = true. Proof. trivial. Qed.
  Lemma grow_split s : grow 0 (split_step w I cf1) (split_step w I cf2) s.
  Proof.
    pose proof HS. unfold split_step. apply grow_bind with (k1 := 0) (k2 := 0); [apply grow_refine|intros; apply grow_same| |lia].
    intro R. apply (up_okk 0 (fun w => put w (set_nb (length (rf_part R))) ;;; put w (set_part (rf_part R)) ;;;
      let! V := lift (load_partition I (uniform (i_k I)) (length (rf_part R)) (rf_part R)) in put w (set_view V) ;;;
      let! r := eval_new w I (rf_part R) (rf_new R) in improve_vlb w I (map snd r) ;;; mret (R, map fst r))).
    intro s1. do 4 (apply okk_last; [walk|intros ? ?]). apply okk_last; [now apply ok_new|]. intros r s9. apply okk_last; [now apply ok_improve|intros; flat].
  Qed.
  Lemma grow_iteration s : grow 1 (iteration w I cf1) (iteration w I cf2) s.
  Proof.
    pose proof HS. unfold iteration. change (bound_phase w I cf1) with (bound_phase w I cf2). apply grow_pre. intros [v|x] s1; [apply grow_same|].
    apply grow_bind with (k1 := 0) (k2 := 0); [apply grow_split| | |lia].
    - intros [R nc] s2. change (merge_step w I cf1 x R nc) with (merge_step w I cf2 x R nc). change (next_iteration w cf1) with (next_iteration w cf2). apply grow_same.
    - intros [R nc]. apply (up_okk 0 (fun w => merge_step w I cf2 x R nc ;;; next_iteration w cf2)). intro s2.
      apply okk_last; [now apply ok_merge|intros; now apply ok_next].
  Qed.
  Lemma grow_loop : forall fuel fuel' s, fuel <= fuel' -> grow fuel' (main_loop w I cf1 fuel) (main_loop w I cf2 fuel') s.
  Proof.
    pose proof HS as H. induction fuel as [|fuel IH]; intros fuel' s L.
    - right. split; [reflexivity|]. cbn [main_loop]. apply (up_okk fuel' (fun w => main_loop w I cf2 fuel')). intro. now apply ok_loop.
    - destruct fuel' as [|fuel']; [lia|]. cbn [main_loop]. apply grow_bind with (k1 := 1) (k2 := fuel'); [apply grow_iteration| | |lia].
      + intros v s1. destruct v; [apply IH; lia|apply grow_same..].
      + intros v. destruct v; try (intro; apply ahead_refl). apply (up_okk fuel' (fun w => main_loop w I cf2 fuel')). intro. now apply ok_loop.
  Qed.
  Lemma solve_more fuel fuel' num s : fuel <= fuel' -> solve w I cf1 fuel num s = solve w I cf2 fuel' num s \/
    (fst (solve w I cf1 fuel num s) = Err NonTermination /\ later fuel' (snd (solve w I cf1 fuel num s)) (snd (solve w I cf2 fuel' num s))).
  Proof.
    intro L. pose proof HS as HS. unfold solve. change (prologue w I cf1 num) with (prologue w I cf2 num). unfold mbind.
    destruct (prologue w I cf2 num s) as [[v|e] s1]; [|now left].
    assert (G : grow fuel' (match v with Continue => main_loop w I cf1 fuel | _ => mret v end) (match v with Continue => main_loop w I cf2 fuel' | _ => mret v end) s1).
    { destruct v; [now apply grow_loop|apply grow_same..]. }
    destruct G as [E|[E H]]; [rewrite E; now left|right].
    destruct ((match v with Continue => main_loop w I cf1 fuel | _ => mret v end) s1) as [[b|e] s2]; [discriminate|]. cbn [fst snd] in *. split; [exact E|].
    destruct ((match v with Continue => main_loop w I cf2 fuel' | _ => mret v end) s1) as [[b|e'] s3]; cbn [snd] in *; [|now apply ahead_later].
    eapply later_trans; [exact H|]. apply (epilogue_later w (w_intr w) HS).
  Qed.
  Lemma run_more fuel fuel' : fuel <= fuel' -> run w I cf1 fuel = run w I cf2 fuel' \/
    (fst (run w I cf1 fuel) = Err NonTermination /\ later fuel' (snd (run w I cf1 fuel)) (snd (run w I cf2 fuel'))).
  Proof.
    intro L. unfold run. change (construct w I cf1) with (construct w I cf2). unfold mbind. destruct (construct w I cf2 (ast0 I)) as [[b|e] s]; [|now left].
    now apply solve_more.
  Qed.
End Grow.

Lemma ends_unique w I cf r1 s1 r2 s2 : ends w I cf r1 s1 -> ends w I cf r2 s2 -> r1 = r2 /\ s1 = s2.
Proof.
  intros (f1 & n1 & E1 & N1) (f2 & n2 & E2 & N2).
  assert (T : forall f n f' n' r s, n <= n' -> f <= f' -> run w I (with_rounds cf n) f = (r, s) -> r <> Err NonTermination -> run w I (with_rounds cf n') f' = (r, s)).
  { intros f n f' n' r s L1 L2 E N. destruct (run_more w I cf n n' L1 f f' L2) as [H|[H _]]; [congruence|]. rewrite E in H. now cbn in H. }
  assert (A := T f1 n1 (max f1 f2) (max n1 n2) r1 s1 ltac:(lia) ltac:(lia) E1 N1). assert (B := T f2 n2 (max f1 f2) (max n1 n2) r2 s2 ltac:(lia) ltac:(lia) E2 N2).
  rewrite A in B. injection B. auto.
Qed.
