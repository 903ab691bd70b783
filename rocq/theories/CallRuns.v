(** Proofs for C87: the split models of a run. *)
From Verif Require Import Base BaseFacts Spec Instance InstanceFacts PartitionFacts OptModels Initial Bounds Refine CostRefine Merge
  MergeFacts RefineFacts Knapsack Violations BigM Adaptive AdaptiveSpec AdaptiveWp AdaptiveStruct SolveSpec SolveFacts SolveRuns CallSpec CallFacts.

Section Calls.
  Variable I : inst.
  Variable cf : cfg.
  Variable w : world.

  Lemma keeps_subset S : keeps (subset_cost w I S). Proof. unfold subset_cost. keep. Qed.
  Lemma keeps_improve c : keeps (improve_vlb w I c). Proof. unfold improve_vlb. keep. Qed.
  Lemma keeps_construct : keeps (construct w I cf).
  Proof. unfold construct, setup_initial_partition, all_scenario_costs, subset_cost. keep. Qed.
  Lemma keeps_prologue num : keeps (prologue w I cf num).
  Proof. unfold prologue, partition_cost, subset_cost, improve_vlb, available. keep. Qed.
  Lemma keeps_bounds : keeps (bound_phase w I cf).
  Proof.
    unfold bound_phase, upper_bound_step, partition_bound, solve_cclp, lower_bound_step, deterministic_bound, store_info, gap_now, available. keep.
  Qed.
  Lemma keeps_new p : forall l, keeps (eval_new w I p l).
  Proof. induction l as [|c l IH]; cbn [eval_new]; [keep|]. unfold subset_cost. keep; apply IH. Qed.
  Lemma keeps_targets p : forall l, keeps (eval_targets w I p l).
  Proof. induction l as [|c l IH]; cbn [eval_targets]; [keep|]. unfold subset_cost. keep; apply IH. Qed.
  Lemma keeps_merge x R nc : keeps (merge_step w I cf x R nc).
  Proof. unfold merge_step, post_merge, improve_vlb. keep; apply keeps_targets. Qed.
  Lemma keeps_next : keeps (next_iteration w cf). Proof. unfold next_iteration, available. keep. Qed.

  Hypothesis HA : argsort_ok (w_argsort w).
  Hypothesis HE : (0 <= i_eps I)%Q.
  Definition turn_splits : nat := match c_split cf with SplitCost => 2 * tolerated I + 2 | _ => 0 end.

  Lemma mqs_refine s : mqs w turn_splits (fun w => refine w I cf) s.
  Proof.
    unfold refine, turn_splits. apply mqs_skip; [keep|reflexivity|]. intros s0 s1 E. injection E as <- <-.
    apply mqs_skip; [keep|reflexivity|]. intros f s1 E. assert (s1 = s) by (unfold lift in E; now injection E as _ <-). subst s1. clear E.
    destruct (c_split cf).
    - destruct (c_acc cf); (apply mqs_silent; [keep|reflexivity]).
    - destruct (ask_refine (w_acc w) (w_argsort w) I f (a_costs s) (a_vUB s) (a_ref s) (a_part s) HA HE) as (L & K & [H1 H2 H3 H4]).
      exists L. split; [exact K|]. constructor.
      + exact H1.
      + intros g Hg. specialize (H2 g Hg). unfold mbind, lift. cbn [w_acc w_argsort with_acc]. rewrite H2. reflexivity.
      + intros g t q Hq Hb HI. specialize (H3 g t q Hq Hb HI). unfold mbind, lift. cbn [w_acc w_argsort with_acc]. rewrite H3. reflexivity.
      + intros R s' E. unfold mbind, lift in E. destruct (refine_cost _ _ _ _ _ _ _ _) as [[R1 cs]|] eqn:ER; [|discriminate].
        destruct (put w (set_ref cs) s) as [[u|] s2] eqn:EP; [|discriminate]. apply put_ok in EP. unfold mret in E. injection E as _ <-. subst s2.
        apply (H4 (R1, cs) eq_refl).
    - apply mqs_silent; [keep|reflexivity].
  Qed.
  Lemma mqs_turn s : mqs w turn_splits (fun w => iteration w I cf) s.
  Proof.
    unfold iteration. apply mqs_skip; [apply keeps_bounds|reflexivity|]. intros r s1 _. destruct r as [v|x]; [apply mqs_silent; [keep|reflexivity]|].
    apply mqs_last; [|intros [R nc]; apply keeps_bind; [apply keeps_merge|intro; apply keeps_next]|reflexivity].
    unfold split_step. apply mqs_last; [apply mqs_refine| |reflexivity]. intro R. keep; apply keeps_new.
  Qed.
  Lemma mqs_turns : forall fuel s, mqs w (fuel * turn_splits) (fun w => main_loop w I cf fuel) s.
  Proof.
    induction fuel as [|fuel IH]; intro s; cbn [main_loop]; [apply mqs_silent; [keep|reflexivity]|].
    apply mqs_bind with (k1 := turn_splits) (k2 := fuel * turn_splits); [apply mqs_turn| |cbn; lia].
    intros v s' _. destruct v; [apply IH|apply mqs_silent; [keep|reflexivity]..].
  Qed.
  Lemma mqs_run k fuel : (forall b s v s', construct w I cf (ast0 I) = (Ok b, s) -> prologue w I cf b s = (Ok v, s') -> mqs w k (fun w => main_loop w I cf fuel) s') ->
    mqs w k (fun w => mbind (construct w I cf) (fun b => solve w I cf fuel b)) (ast0 I).
  Proof.
    intro H. apply mqs_skip; [apply keeps_construct|reflexivity|]. intros b s EC. unfold solve.
    apply mqs_skip; [apply keeps_prologue|reflexivity|]. intros v s' EP. apply mqs_last; [|intro; unfold epilogue; keep|reflexivity].
    destruct v; [now apply (H b s Continue s')|apply mqs_silent; [keep|reflexivity]..].
  Qed.

  Hypothesis HO : oracles_ok w I.
  Hypothesis HW : wf_inst I.
  (** Without merging: each turn adds a subset. *)
  Lemma mqs_loop : c_merger cf = false -> forall fuel s, shaped w I s -> fe_ok w I s ->
    mqs w ((i_k I - length (a_part s) + 1) * turn_splits) (fun w => main_loop w I cf fuel) s.
  Proof.
    intro HM. induction fuel as [|fuel IH]; intros s SH FE; cbn [main_loop]; [apply mqs_silent; [keep|reflexivity]|].
    apply mqs_bind with (k1 := turn_splits) (k2 := (i_k I - length (a_part s)) * turn_splits); [apply mqs_turn| |nia].
    intros v s' E. destruct v; [|apply mqs_silent; [keep|reflexivity]..].
    destruct (asks_growth I cf w HO HW HE s HM SH FE) as (L0 & _ & _ & G). destruct (G s' E) as (S' & F' & LT & _).
    destruct (IH s' S' F') as (L & K & H). exists L. split; [|exact H]. assert (V' := vp_length _ _ (sh_valid _ _ _ S')). nia.
  Qed.
End Calls.

Lemma mqs_solved {A} w k (m : world -> M A) s : mqs w k m s -> a_ref s = cstate0 ->
  exists L, length L <= k /\ splits_solved w (fun w => m w s) L /\ distinct L /\
    (forall a s', m w s = (Ok a, s') -> map fst (c_mem (a_ref s')) = L).
Proof.
  intros (L & K & [H1 H2 H3 H4]) E. rewrite E in *. cbn [c_calls cstate0 keys c_mem map app] in *. exists L. split; [exact K|]. split; [split|split].
  - intros f Hf. apply H2. intros t q Hq. apply (Hf t q Hq).
  - intros f t q Hq Hb HI. apply (H3 f t q Hq); [|exact HI]. intros t' q' Hq'. destruct (lt_dec t' t) as [LT|GE].
    + apply (Hb t' q' LT). rewrite <- Hq'. rewrite <- (firstn_skipn t L) at 1. apply nth_error_app1. apply nth_error_Some. congruence.
    + exfalso. assert (t' < length (firstn t L)) by (apply nth_error_Some; congruence). rewrite firstn_length in H. lia.
  - apply H1. intros t t' q q' _ C. destruct t; discriminate C.
  - intros a s' Ea. apply (H4 a s' Ea).
Qed.

Theorem splits_turns w I cf fuel : argsort_ok (w_argsort w) -> (0 <= i_eps I)%Q ->
  exists L, splits_solved w (fun w => run w I cf fuel) L /\ distinct L /\
    length L <= fuel * match c_split cf with SplitCost => 2 * tolerated I + 2 | _ => 0 end.
Proof.
  intros HA HE. destruct (mqs_solved w _ _ (ast0 I) (mqs_run I cf w _ fuel (fun _ _ _ s' _ _ => mqs_turns I cf w HA HE fuel s')) eq_refl) as (L & K & H1 & H2 & _).
  exists L. auto.
Qed.
Theorem splits_unmerged w I cf fuel : oracles_ok w I -> wf_inst I -> (0 <= i_eps I)%Q -> c_merger cf = false ->
  exists L, splits_solved w (fun w => run w I cf fuel) L /\ distinct L /\ length L <= (i_k I - tolerated I) * (2 * tolerated I + 2).
Proof.
  intros HO HW HE HM. assert (HA := proj1 (proj2 HO)).
  destruct (mqs_solved w ((i_k I - tolerated I) * turn_splits I cf) _ (ast0 I) (mqs_run I cf w ((i_k I - tolerated I) * turn_splits I cf) fuel
    ltac:(intros b s v s' EC EP; assert (CS := wp_run _ _ _ _ _ _ (construct_inv w I cf HO HE) EC); cbv beta iota in CS;
          assert (PI := wp_run _ _ _ _ _ _ (prologue_inv w I cf b s CS) EP); cbv beta iota in PI; destruct PI as (SH & FN & PP);
          assert (VL := vp_length _ _ (sh_valid _ _ _ SH)); assert (EL := cs_len _ _ CS); rewrite <- PP in EL;
          replace (i_k I - tolerated I) with (i_k I - length (a_part s') + 1) by lia;
          apply mqs_loop; [assumption..|now left])) eq_refl) as (L & K & H1 & H2 & _).
  exists L. split; [exact H1|]. split; [exact H2|]. unfold turn_splits in K. destruct (c_split cf); nia.
Qed.

(** Asked and remembered. *)
Lemma splits_memory w I cf fuel v s : argsort_ok (w_argsort w) -> (0 <= i_eps I)%Q -> run w I cf fuel = (Ok v, s) ->
  splits_solved w (fun w => run w I cf fuel) (map fst (c_mem (a_ref s))).
Proof.
  intros HA HE E. destruct (mqs_solved w _ _ (ast0 I) (mqs_run I cf w _ fuel (fun _ _ _ s' _ _ => mqs_turns I cf w HA HE fuel s')) eq_refl) as (L & K & H1 & _ & H2).
  rewrite (H2 v s E). exact H1.
Qed.
Lemma question_dec (q q' : question) : {q = q'} + {q <> q'}.
Proof. decide equality; apply list_eq_dec, Nat.eq_dec. Qed.
Theorem splits_unique A w (go : world -> res A * ast) L L' : fst (go w) <> Err KeyboardInterrupt ->
  splits_solved w go L -> splits_solved w go L' -> L = L'.
Proof.
  intros NK S S'. assert (G : forall L L', splits_solved w go L -> splits_solved w go L' -> forall t q, nth_error L t = Some q -> nth_error L' t = Some q).
  { clear S S' L L'. intros L L' [_ S] [D' _] t q Hq.
    set (f := fun t' a b => if (t' =? t) && (if question_dec (a, b) q then true else false) then AccInterrupted else w_acc w t' a b).
    assert (ST : fst (go (with_acc w f)) = Err KeyboardInterrupt).
    { apply (S f t q Hq).
      - intros t' q' LT _. unfold f. rewrite (proj2 (Nat.eqb_neq t' t)) by lia. reflexivity.
      - unfold f. rewrite Nat.eqb_refl. destruct q as [a b]. cbn [fst snd andb]. destruct (question_dec (a, b) (a, b)); [reflexivity|congruence]. }
    destruct (nth_error L' t) as [q'|] eqn:EL; [destruct (question_dec q' q) as [->|N]; [reflexivity|]|].
    - exfalso. apply NK. rewrite <- (D' f); [exact ST|]. intros t1 q1 H1. unfold f. destruct (t1 =? t) eqn:ET; [|reflexivity].
      apply Nat.eqb_eq in ET. subst t1. rewrite EL in H1. injection H1 as <-. destruct q' as [a b]. cbn [fst snd andb].
      destruct (question_dec (a, b) q); [congruence|reflexivity].
    - exfalso. apply NK. rewrite <- (D' f); [exact ST|]. intros t1 q1 H1. unfold f. destruct (t1 =? t) eqn:ET; [|reflexivity].
      apply Nat.eqb_eq in ET. subst t1. rewrite EL in H1. discriminate. }
  assert (GE : forall l l' : list question, (forall t, nth_error l t = nth_error l' t) -> l = l').
  { clear. induction l as [|a l IH]; intros [|b l'] H; [reflexivity|specialize (H 0); discriminate|specialize (H 0); discriminate|].
    f_equal; [specialize (H 0); now injection H|apply IH; intro t; apply (H (Datatypes.S t))]. }
  apply GE. intro t. destruct (nth_error L t) as [q|] eqn:E1; [symmetry; now apply (G L L' S S')|].
  destruct (nth_error L' t) as [q|] eqn:E2; [|reflexivity]. rewrite <- E1. now apply (G L' L S' S).
Qed.
