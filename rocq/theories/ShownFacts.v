(** Proofs for C92. *)
From Verif Require Import Base BaseFacts Spec Instance OptModels Initial Bounds Refine CostRefine Merge Violations BigM Adaptive AdaptiveWp Main ResultText ShownSpec.

Lemma shown_file name I cf split init proj solved started final s s' : shown s = shown s' ->
  adaptive_file name I cf split init proj solved started final s = adaptive_file name I cf split init proj solved started final s' /\
  iteration_file s = iteration_file s'.
Proof.
  unfold shown. intro H. injection H as H1 H2 H3 H4 H5 H6 H7 H8. split.
  - unfold adaptive_file, adaptive_fields, computation_fields. rewrite H1, H2, H3, H4, H5, H6, H7. reflexivity.
  - unfold iteration_file. now rewrite H8.
Qed.
Lemma messy_same mess w I name path ipath info fuel cf kws split init :
  (forall s, shown (mess s) = shown s /\ a_t (mess s) = a_t s) ->
  messy_adaptive mess w I name path ipath info fuel cf kws split init = main_adaptive_text w I name path ipath info fuel cf kws split init.
Proof.
  intro H. unfold messy_adaptive, main_adaptive_text.
  destruct (construct w I cf (ast0 I)) as [[b|e] s]; [|reflexivity].
  destruct (bind_keywords _ _ _); [|reflexivity].
  destruct (solve w I cf fuel b s) as [[v|e] s']; [reflexivity|].
  destruct e; try reflexivity.
  destruct (H s') as [H1 H2]. assert (EI : a_iter (mess s') = a_iter s') by (unfold shown in H1; injection H1; auto).
  cbv zeta. rewrite H2, EI.
  destruct (shown_file name I cf split init name true true None _ _ H1) as [_ H3]. rewrite H3.
  match goal with |- context [adaptive_file ?a ?b ?c ?d ?e ?f ?g ?h ?i (mess s')] => rewrite (proj1 (shown_file a b c d e f g h i _ _ H1)) end.
  reflexivity.
Qed.

Section Phases.
  Variable w : world.
  Variable I : inst.
  Variable cf : cfg.
  Lemma pres_same {A B} (f : ast -> B) (m : M A) s : pres (fun s' => f s' = f s) m -> f (snd (m s)) = f s.
  Proof. intro H. specialize (H s eq_refl). unfold wp in H. destruct (m s) as [[a|e] s']; exact H. Qed.
  Lemma refine_shown s : shown (snd (refine w I cf s)) = shown s.
  Proof. apply pres_same, pres_refine; intros s0 v H; exact H. Qed.
  Lemma big_M_shown s : shown (snd (big_M w I cf s)) = shown s.
  Proof. apply pres_same, pres_big_M; intros s0 v H; exact H. Qed.
  Lemma split_shown s : shown_fixed (snd (split_step w I cf s)) = shown_fixed s.
  Proof. apply pres_same, pres_split0; try (intros s0 v H; exact H). intro c. apply pres_improve0; try (intros s0 v H; exact H). intros s0 v np H; exact H. Qed.
  Lemma merge_shown x R nc s : shown_fixed (snd (merge_step w I cf x R nc s)) = shown_fixed s.
  Proof. apply pres_same, pres_merge0; try (intros s0 v H; exact H). intro c. apply pres_improve0; try (intros s0 v H; exact H). intros s0 v np H; exact H. Qed.
  Let sized (k : nat) (s : ast) : Prop := v_k (a_view s) = k \/ (v_k (a_view s) = a_nb s /\ a_nb s = length (a_part s)).
  Lemma load_size p n part V : load_partition I p n part = Ok V -> v_k V = n.
  Proof.
    unfold load_partition. intro H.
    repeat match type of H with rbind ?x _ = _ => destruct x; cbn [rbind] in H; [|discriminate H] | (if ?b then _ else _) = _ => destruct b; try discriminate H end.
    injection H as <-. reflexivity.
  Qed.
  Lemma improve_sized k c : pres (sized k) (improve_vlb w I c).
  Proof. apply pres_improve0; try (intros s0 v H; exact H). intros s0 v np H; exact H. Qed.
  Lemma split_sized s : sized (v_k (a_view s)) (snd (split_step w I cf s)).
  Proof.
    assert (W : wp (fun _ => sized (v_k (a_view s))) (split_step w I cf) (fun _ => sized (v_k (a_view s))) s).
    { unfold split_step.
      eapply wp_bind_mono.
      { assert (X := pres_refine w I cf (fun s' => v_k (a_view s') = v_k (a_view s)) (fun _ _ H => H) (fun _ _ H => H) (fun _ _ H => H) s eq_refl).
        unfold wp in *. destruct (refine w I cf s) as [[a|e] s']; [exact X|left; exact X]. }
      intros R s1 H1. cbv beta in H1.
      apply wp_bind, wp_put; intros _; [left; exact H1|]. 
      apply wp_bind, wp_put; intros _; [left; exact H1|].
      apply wp_bind, wp_lift; [|intros; left; exact H1]. intros V EV. apply load_size in EV.
      apply wp_bind, wp_put; intros _; [right; split; [exact EV|reflexivity]|].
      eapply wp_bind_mono; [apply pres_eval_new; [intros s0 v H; exact H..|right; split; [exact EV|reflexivity]]|].
      intros r s2 H2. cbv beta in H2. eapply wp_bind_mono; [apply improve_sized, H2|]. intros u s3 H3. exact H3. }
    unfold wp in W. destruct (split_step w I cf s) as [[a|e] s']; exact W.
  Qed.
  Lemma post_merge_sized s : forall k, v_k (a_view s) = k -> a_nb s = length (a_part s) -> wp (fun _ => sized k) (post_merge w I) (fun _ => sized k) s.
  Proof.
    intros k E0 EN. unfold post_merge. apply wp_bind, wp_get.
    apply wp_bind, wp_lift; [|intros e _; left; exact E0]. intros V EV. apply load_size in EV.
    apply wp_bind, wp_put; intros _; [right; split; [exact EV|exact EN]|].
    apply wp_bind, wp_lift; [|intros e _; right; split; [exact EV|exact EN]]. intros cs _. apply wp_bind, wp_lift; [|intros e _; right; split; [exact EV|exact EN]]. intros ss _.
    apply wp_bind, wp_put; intros _; [right; split; [exact EV|exact EN]|]. apply wp_bind, wp_put; intros _; [right; split; [exact EV|exact EN]|].
    eapply wp_bind_mono; [apply pres_eval_targets; [intros s0 v H; exact H..|right; split; [exact EV|exact EN]]|].
    intros r s2 H2. cbv beta in H2. apply improve_sized, H2.
  Qed.
  Lemma merge_sized x R nc s : sized (v_k (a_view s)) (snd (merge_step w I cf x R nc s)).
  Proof.
    assert (W : wp (fun _ => sized (v_k (a_view s))) (merge_step w I cf x R nc) (fun _ => sized (v_k (a_view s))) s).
    { unfold merge_step.
      apply wp_bind, wp_put; intros _; [left; reflexivity|].
      destruct (c_merger cf); [|apply wp_ret; left; reflexivity].
      apply wp_bind, wp_lift; [|intros; left; reflexivity]. intros mx _. apply wp_bind, wp_get.
      destruct (ext_leb _ _); [|apply wp_ret; left; reflexivity].
      apply wp_bind, wp_lift; [|intros; left; reflexivity]. intros [[kind p] ms] _.
      apply wp_bind, wp_put; intros _; [left; reflexivity|]. apply wp_bind, wp_put; intros _; [left; reflexivity|]. apply wp_bind, wp_put; intros _; [left; reflexivity|].
      eapply wp_bind_mono; [apply post_merge_sized; reflexivity|].
      intros u s1 H1. cbv beta in H1. apply wp_bind, wp_get.
        apply wp_bind. destruct kind; [apply wp_lift; [|intros; exact H1]; intros u' _|apply wp_ret]; apply wp_put; intros _; exact H1. }
    unfold wp in W. destruct (merge_step w I cf x R nc s) as [[a|e] s']; exact W.
  Qed.
End Phases.
