(** Proofs for C88. *)
From Verif Require Import Base BaseFacts Spec Instance InstanceFacts OptModels Initial Bounds Refine CostRefine Merge MergeFacts
  Knapsack Violations BigM Adaptive AdaptiveSpec AdaptiveWp StopSpec.

(** Without the final assignment. *)
Record ahead (n : nat) (s s' : ast) : Prop := mkAhead {
  ah_log : exists l, a_log s' = a_log s ++ l;
  ah_iter : a_iter s <= a_iter s';
  ah_lower : ext_leb (a_vLB s) (a_vLB s') = true;
  ah_upper : ext_leb (a_vUB s') (ext_add (a_vUB s) (Qn n * (1 # 100000000))) = true
}.
Lemma slack_pos n : (0 <= Qn n * (1 # 100000000))%Q.
Proof. pose proof (Qn_nonneg n). lra. Qed.
Lemma ahead_same n s s' : a_log s' = a_log s -> a_iter s' = a_iter s -> a_vLB s' = a_vLB s -> a_vUB s' = a_vUB s -> ahead n s s'.
Proof.
  intros E1 E2 E3 E4. constructor; rewrite ?E1, ?E2, ?E3, ?E4; [exists []; now rewrite app_nil_r|lia|apply ext_leb_refl'|].
  apply ext_add_le, slack_pos.
Qed.
Lemma ahead_refl n s : ahead n s s. Proof. now apply ahead_same. Qed.
Lemma ahead_le n n' s s' : ahead n s s' -> n <= n' -> ahead n' s s'.
Proof.
  intros [H1 H2 H3 H4] L. constructor; auto. eapply ext_leb_trans; [exact H4|]. apply ext_add_mono_r.
  assert (Qn n <= Qn n')%Q by (unfold Qn; rewrite <- Zle_Qle; lia). lra.
Qed.
Lemma ahead_trans n n' s s' s'' : ahead n s s' -> ahead n' s' s'' -> ahead (n + n') s s''.
Proof.
  intros [(l & H1) H2 H3 H4] [(l' & G1) G2 G3 G4]. constructor.
  - exists (l ++ l'). now rewrite G1, H1, app_assoc.
  - lia.
  - eapply ext_leb_trans; eassumption.
  - eapply ext_leb_trans; [exact G4|]. eapply ext_leb_trans; [apply ext_add_mono, H4|]. eapply ext_leb_trans; [apply ext_add_add|].
    apply ext_add_mono_r. assert (E : (Qn (n + n') == Qn n + Qn n')%Q) by (unfold Qn; rewrite Nat2Z.inj_add, inject_Z_plus; reflexivity).
    rewrite E. lra.
Qed.

Section Stop.
  Variable w : world.
  Variable sig : nat -> bool.
  Hypothesis HS : forall t, w_intr w t = true -> sig t = true.
  Local Notation w' := (with_intr w sig).

  (** [m] from [s]: the additional signals do not change it, or end it in a state that [m] passes. *)
  Record okk {A} (k : nat) (m : world -> M A) (s : ast) : Prop := mkOkk {
    ok_cut : m w' s = m w s \/ (fst (m w' s) = Err KeyboardInterrupt /\ ahead k (snd (m w' s)) (snd (m w s)));
    ok_mono : ahead k s (snd (m w s))
  }.
  Lemma okk_le {A} k k' (m : world -> M A) s : okk k m s -> k <= k' -> okk k' m s.
  Proof.
    intros [[E|[E H1]] H2] L; constructor; try (eapply ahead_le; eassumption); [now left|right]. split; [exact E|eapply ahead_le; eassumption].
  Qed.
  Lemma okk_bind {A B} k1 k2 k (m : world -> M A) (f : world -> A -> M B) s : okk k1 m s ->
    (forall a s', m w s = (Ok a, s') -> okk k2 (fun w => f w a) s') -> k1 + k2 <= k -> okk k (fun w => mbind (m w) (f w)) s.
  Proof.
    intros [H1 H2] HF L. apply okk_le with (k := k1 + k2); [|exact L]. clear k L. unfold mbind.
    destruct (m w s) as [[a|e] s1] eqn:E; cbn [snd] in *.
    - destruct (HF a s1 eq_refl) as [F1 F2]. constructor; cbn beta.
      + destruct H1 as [H1|[H1 H3]].
        * cbn beta. rewrite H1. rewrite E. destruct F1 as [F1|[F1 F3]]; [now left|right]. split; [exact F1|]. eapply ahead_le; [exact F3|lia].
        * right. destruct (m w' s) as [[b|e] s2]; [discriminate|]. cbn [fst snd] in *. rewrite E. split; [now injection H1 as ->|]. eapply ahead_trans; eassumption.
      + rewrite E. eapply ahead_trans; eassumption.
    - constructor; cbn beta; rewrite E; cbn [snd].
      + destruct H1 as [H1|[H1 H3]]; [left; now rewrite H1|right]. destruct (m w' s) as [[b|e'] s2]; [discriminate|]. cbn [fst snd] in *.
        split; [now injection H1 as ->|]. eapply ahead_le; [exact H3|lia].
      + eapply ahead_le; [exact H2|lia].
  Qed.
  Lemma okk_conv {A} k (m m' : world -> M A) s : okk k m' s -> m w' s = m' w' s -> m w s = m' w s -> okk k m s.
  Proof. intros [H1 H2] E1 E2. constructor; rewrite ?E1, ?E2; assumption. Qed.
  Lemma okk_same {A} k (m : world -> M A) s : m w' s = m w s -> ahead k s (snd (m w s)) -> okk k m s.
  Proof. intros H1 H2. constructor; [now left|exact H2]. Qed.
  Lemma okk_put k (f : ast -> ast) s : ahead k s (f s) -> okk k (fun w => put w f) s.
  Proof.
    intro H. unfold put, mbind, tick. assert (B : forall r : res unit, ahead k s (snd (r, bump (f s)))).
    { intro r. cbn. destruct H as [H1 H2 H3 H4]. constructor; assumption. }
    constructor; [|destruct (w_intr w (a_t (f s))); apply B]. cbn [w_intr with_intr].
    destruct (w_intr w (a_t (f s))) eqn:E; [rewrite (HS _ E); now left|]. destruct (sig (a_t (f s))); [right|now left].
    split; [reflexivity|apply ahead_refl].
  Qed.
  Lemma okk_call k mm s : okk k (fun w => call w mm) s.
  Proof.
    unfold call, mbind, tick. constructor; [|destruct (w_intr w (a_t s)); now apply ahead_same]. cbn [w_intr w_solve with_intr].
    destruct (w_intr w (a_t s)) eqn:E; [rewrite (HS _ E); now left|]. destruct (sig (a_t s)); [right|now left].
    split; [reflexivity|now apply ahead_same].
  Qed.
  Lemma okk_last {A B} k (m : world -> M A) (f : world -> A -> M B) s : okk k m s -> (forall a s, okk 0 (fun w => f w a) s) ->
    okk k (fun w => mbind (m w) (f w)) s.
  Proof. intros H1 H2. apply okk_bind with (k1 := k) (k2 := 0); [exact H1|intros; apply H2|lia]. Qed.
  Lemma okk_first {A B} k (m : world -> M A) (f : world -> A -> M B) s : okk 0 m s ->
    (forall a s', m w s = (Ok a, s') -> okk k (fun w => f w a) s') -> okk k (fun w => mbind (m w) (f w)) s.
  Proof. intros H1 H2. apply okk_bind with (k1 := 0) (k2 := k); [exact H1|exact H2|lia]. Qed.
  Lemma okk_mmap {A B} (f : world -> A -> M B) l : (forall a s, okk 0 (fun w => f w a) s) -> forall s, okk 0 (fun w => mmap (f w) l) s.
  Proof.
    intro H. induction l as [|a l IH]; intro s; cbn [mmap]; [apply okk_same; [reflexivity|apply ahead_refl]|].
    apply okk_last; [apply H|]. intros b s1. apply okk_last; [apply IH|]. intros bs s2. apply okk_same; [reflexivity|apply ahead_refl].
  Qed.
End Stop.
Ltac flat := apply okk_same; [reflexivity|first [apply ahead_refl | now apply ahead_same]].
Ltac walk := repeat first
  [ flat
  | apply okk_call; assumption
  | apply okk_put; [assumption|now apply ahead_same]
  | apply okk_last; [|intros]
  | match goal with |- okk _ _ _ (fun w => match ?x with _ => _ end) _ => destruct x end ].
