(** One run with several time limits. *)
From Verif Require Import Base BaseFacts InstanceFacts Spec Instance OptModels Initial Bounds Refine CostRefine Merge Violations Adaptive AdaptiveSpec AdaptiveWp AdaptiveBounds
  NearSpec AdaptiveEnd AdaptiveEx AdaptiveEx2 EndEx BruteForce BruteForceFacts ResultText StopSpec LimitSpec LimitFacts.

(** One second per call. *)
Definition ticking (I : inst) (sol : nat -> model -> outcome) : world :=
  let w := ex_world I sol in
  mkWorld (w_solve w) (w_acc w) (w_perm w) (w_argsort w) (w_norm w) (w_sort w) (fun t => inject_Z (5 + Z.of_nat t)) (fun _ => false).
Definition timed_run (sol : nat -> model -> outcome) (q : Q) := run (ticking exS sol) exS (limited ex_plain q) 20.
Definition timed_seen (sol : nat -> model -> outcome) (q : Q) :=
  let '(r, s) := timed_run sol q in (r, length (a_log s), a_vLB s, a_vUB s, a_iter s).
Definition no_hurry (t : nat) (m : model) : outcome := brute m.
(** A solver that loses its answer when it has much time. *)
Definition sleepy (t : nat) (m : model) : outcome :=
  match m_time m with Some q => if Qle_bool 100 q then NoSolution else brute m | None => brute m end.
Lemma no_hurry_quick : quick (ticking exS no_hurry). Proof. intros t m q q'. reflexivity. Qed.
Lemma ticking_mono sol : clock_mono (ticking exS sol).
Proof. intros t t' H. cbn [w_clock ticking]. rewrite <- Zle_Qle. lia. Qed.
Lemma sleepy_ok : solver_ok (ticking exS sleepy) exS 0 0.
Proof.
  destruct (example_hyps exS eq_refl eq_refl eq_refl eq_refl) as (H1 & H2 & H3 & H4 & H5 & H6).
  assert (HH : solver_ok (ex_world exS sleepy) exS 0 0).
  { apply eval_brute; auto; [lra| |].
    - intros t m. unfold sleepy. destruct (m_time m); [destruct (Qle_bool 100 q)|]; try apply brute_ok0. exact Logic.I.
    - intros t m x z v b _ E. unfold sleepy in E.
      destruct (m_time m); [destruct (Qle_bool 100 q)|]; try discriminate E; apply brute_tight in E; subst; lra. }
  destruct HH; constructor; assumption.
Qed.
Lemma slow_refuted : ~ (forall w I cf q q' fuel, (q <= q')%Q -> clock_mono w -> solver_ok w I 0 0 ->
  exists t, iteration_file (snd (run w I (limited cf q') fuel)) = iteration_file (snd (run w I (limited cf q) fuel)) ++ t).
Proof.
  intro H. destruct (H (ticking exS sleepy) exS ex_plain 150%Q 200%Q 20 ltac:(discriminate) (ticking_mono _) sleepy_ok) as [t E].
  apply (f_equal (@length _)) in E. rewrite app_length in E.
  assert (L : length (iteration_file (snd (run (ticking exS sleepy) exS (limited ex_plain 200%Q) 20))) < length (iteration_file (snd (run (ticking exS sleepy) exS (limited ex_plain 150%Q) 20)))).
  { apply Nat.ltb_lt. vm_compute. reflexivity. }
  lia.
Qed.
Lemma limit_example : quick (ticking exS no_hurry) /\ clock_mono (ticking exS no_hurry) /\
  map (timed_seen no_hurry) [20; 30; 60; 70; 80; 100; 150]%Q =
    [(Ok TimeUp, 0, Fin 14, PInf, 1); (Ok TimeUp, 2, Fin 14, Fin 19, 1); (Err GurobiError, 2, Fin 14, Fin 19, 2);
     (Ok TimeUp, 3, Fin 14, Fin 18, 2); (Ok TimeUp, 4, Fin 14, Fin 18, 2); (Ok TimeUp, 4, Fin 14, Fin 18, 3); (Ok Feasible, 5, Fin 14, Fin 14, 3)].
Proof. split; [apply no_hurry_quick|]. split; [apply ticking_mono|vm_compute; reflexivity]. Qed.
