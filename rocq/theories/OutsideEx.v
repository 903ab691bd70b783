(** A machine with a clock, a signal and a solver that needs time. *)
From Verif Require Import Base BaseFacts InstanceFacts Spec Instance OptModels Initial Bounds Refine CostRefine Merge Violations Adaptive AdaptiveSpec AdaptiveWp AdaptiveBounds
  NearSpec AdaptiveEnd AdaptiveEx AdaptiveEx2 EndEx BruteForce BruteForceFacts LogEx OutsideSpec.

(** Enumeration that gives up on models with less than lim seconds. *)
Definition hasty_solve (lim : Q) (t : nat) (m : model) : outcome :=
  match m_time m with Some q => if Qle_bool lim q then brute m else NoSolution | None => brute m end.
(** One second per call, a signal at call n. *)
Definition hasty (I : inst) (lim : Q) (n : option nat) : world :=
  let w := ex_world I (hasty_solve lim) in
  mkWorld (w_solve w) (w_acc w) (w_perm w) (w_argsort w) (w_norm w) (w_sort w) (fun t => inject_Z (5 + Z.of_nat t))
    (fun t => match n with Some k => t =? k | None => false end).
Definition hasty_run (limit lim : Q) (n : option nat) := run (hasty exS lim n) exS (with_limit limit ex_plain) 20.

Lemma hasty_hyps lim n limit : let w := hasty exS lim n in
  oracles_ok w exS /\ sort_spec (w_sort w) /\ wf_inst exS /\ packing exS /\ eps_ok exS /\ solver_ok w exS 0 0 /\ near exS /\ steady w exS /\
  options_ok w exS (with_limit limit ex_plain) /\ (exists y, det_feasible exS (seq 0 (i_k exS)) 0 y /\ (0 < obj exS y)%Q).
Proof.
  intro w. destruct (example_hyps exS eq_refl eq_refl eq_refl eq_refl) as (H1 & H2 & H3 & H4 & H5 & H6).
  assert (HH : solver_ok (ex_world exS (hasty_solve lim)) exS 0 0).
  { apply eval_brute; auto; [lra| |].
    - intros t m. unfold hasty_solve. destruct (m_time m); [destruct (Qle_bool lim q)|]; try apply brute_ok0. exact Logic.I.
    - intros t m x z v b _ E. unfold hasty_solve in E.
      destruct (m_time m); [destruct (Qle_bool lim q)|]; try discriminate E; apply brute_tight in E; subst; lra. }
  split; [destruct H1; constructor; assumption|]. split; [exact H2|]. split; [exact H3|]. split; [exact H4|]. split; [exact H5|].
  split; [destruct HH; constructor; assumption|]. split; [apply tight_near, tenthsb_tight; reflexivity|]. split.
  { constructor.
    - intros t t' H. cbn [w_clock w hasty]. rewrite <- Zle_Qle. lia.
    - intros t m C E. right. cbn [w_solve w hasty ex_world]. unfold hasty_solve. rewrite E. assert (X := brute_exact m C). now apply exact_finished in X.
    - intro C. discriminate C. }
  split.
  { destruct (brute_options exS SplitRandom InitRandom Naive false false H3 ltac:(vm_compute; lia) ltac:(discriminate) ltac:(discriminate) ltac:(discriminate)).
    constructor; assumption. }
  exists [1; 0; 0; 0]%Q. split; [|reflexivity]. split; [apply in_domb_ok; reflexivity|]. intros s Hs. apply satb_iff. apply in_seq in Hs.
  do 9 (destruct s as [|s]; [vm_compute; reflexivity|]). cbn in Hs. lia.
Qed.

Lemma hasty_outcomes :
  map (fun l => fst (hasty_run l 0 None)) [150; 70; 60]%Q = [Ok Feasible; Ok TimeUp; Err GurobiError] /\
  fst (hasty_run 70 10 None) = Err AttributeError /\ fst (hasty_run 150 0 (Some 63)) = Err KeyboardInterrupt /\
  i_k exS - tolerated exS = 6.
Proof. vm_compute. auto. Qed.
