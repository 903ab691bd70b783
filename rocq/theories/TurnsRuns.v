(** Proofs for C89: programs that end and programs that do not. *)
From Verif Require Import Base BaseFacts Spec Instance InstanceFacts OptModels Initial Bounds Refine CostRefine Merge MergeFacts
  Knapsack Violations BigM Adaptive AdaptiveSpec AdaptiveWp AdaptiveEnd AdaptiveCycle AdaptiveEx AdaptiveEx2 CycleEx EndEx Ex Main ResultText StopSpec StopFacts StopRuns TurnsSpec TurnsFacts.

Lemma with_rounds_same cf : with_rounds cf (c_fuel cf) = cf. Proof. now destruct cf. Qed.

Lemma main_more repr w I name path ipath info METHOD fuel fuel' n n' : fuel <= fuel' -> n <= n' ->
  main_text repr w I name path ipath info fuel n METHOD = main_text repr w I name path ipath info fuel' n' METHOD \/
  main_text repr w I name path ipath info fuel n METHOD = (Err NonTermination, []).
Proof.
  intros L1 L2.
  assert (G : forall cf kws split init, main_adaptive_text w I name path ipath info fuel (with_rounds cf n) kws split init = main_adaptive_text w I name path ipath info fuel' (with_rounds cf n') kws split init \/
    main_adaptive_text w I name path ipath info fuel (with_rounds cf n) kws split init = (Err NonTermination, [])).
  { intros cf kws split init. unfold main_adaptive_text. change (construct w I (with_rounds cf n)) with (construct w I (with_rounds cf n')).
    destruct (construct w I (with_rounds cf n') (ast0 I)) as [[b|e] s]; [|now left]. destruct (bind_keywords solve_params 1 kws); [|now left].
    destruct (solve_more w I cf n n' L2 fuel fuel' b s L1) as [E|[E _]].
    - rewrite E. left. reflexivity.
    - right. destruct (solve w I (with_rounds cf n) fuel b s) as [[v|e] s']; [discriminate|]. cbn in E. injection E as ->. reflexivity. }
  unfold main_text. destruct (METHOD =? 1)%Z; [now left|]. destruct (METHOD =? 2)%Z; [now left|].
  destruct (METHOD =? 3)%Z; [exact (G (cfg3 0) keywords3 _ _)|].
  destruct (METHOD =? 4)%Z; [exact (G (cfg4 0) keywords4 _ _)|]. now left.
Qed.

Lemma program_ends w I cf tau delta : oracles_ok w I -> sort_spec (w_sort w) -> wf_inst I -> packing I -> eps_ok I -> (i_eps I < 1)%Q ->
  solver_ok w I tau delta -> eps_within I tau -> calm w cf -> options_ok w I cf -> tight I -> i_cont I = false -> 0 < i_n I -> c_merger cf = false ->
  exists r s, ends w I cf r s /\ (r = Ok Feasible \/ r = Ok GapReached \/ zero_bound r s).
Proof.
  intros H1 H2 H3 H4 H5 H6 H7 H8 H9 H10 H11 H12 H13 H14. destruct (run w I cf (i_k I)) as [r s] eqn:E. exists r, s.
  assert (D : r = Ok Feasible \/ r = Ok GapReached \/ zero_bound r s) 
    by (destruct (ends_run w I cf tau delta H1 H2 H3 H4 H5 H6 H7 H8 H9 H10 H11 H12 H13 (i_k I) r s H14 ltac:(lia) E) as [[X _]|[[X _]|X]]; auto).
  split; [|exact D]. exists (i_k I), (c_fuel cf). rewrite with_rounds_same. split; [exact E|]. intros ->. destruct D as [D|[D|[D _]]]; discriminate D.
Qed.

Lemma program_endless w I cf : oracles_ok w I -> sort_spec (w_sort w) -> wf_inst I -> packing I -> eps_ok I -> (i_eps I < 1)%Q ->
  solver_ok w I 0 0 -> calm w cf -> options_ok w I cf -> tight I -> i_cont I = false -> 0 < i_n I ->
  forall V, trap I V (c_gap cf) -> c_merger cf = true -> (0 <= c_gap cf)%Q -> forall r s, ~ ends w I cf r s.
Proof.
  intros H1 H2 H3 H4 H5 H6 H7 H8 H9 H10 H11 H12 V H13 H14 H15 r s (fuel & n & E & N).
  assert (O : options_ok w I (with_rounds cf (max n (c_fuel cf)))).
  { destruct H9 as [O1 O2 O3 O4]. constructor; try assumption. destruct O3 as [(A & B & C)|O3]; [left|now right]. repeat split; try assumption. cbn. lia. }
  assert (C : calm w (with_rounds cf (max n (c_fuel cf)))) by (destruct H8; constructor; assumption).
  destruct (run_stuck w I (with_rounds cf (max n (c_fuel cf))) H1 H2 H3 H4 H5 H6 H7 C O H10 H11 H12 V H13 H14 H15 fuel) as [s' X].
  destruct (run_more w I cf n (max n (c_fuel cf)) ltac:(lia) fuel fuel (le_n _)) as [Y|[Y _]]; rewrite E in Y; [rewrite X in Y; injection Y as -> _; congruence|].
  cbn in Y. congruence.
Qed.

Lemma turns_example :
  (exists s, ends (brute_world exMid) exMid (ex_cfg SplitCost InitCost Belotti true true) (Ok Feasible) s /\ a_vLB s = Fin 5 /\ a_vUB s = Fin 5 /\ a_iter s = 3) /\
  (forall r s, ~ ends (brute_world exC) exC (ex_cfg SplitCost InitCost Belotti true true) r s) /\
  map (fun f => fst (run (brute_world exMid) exMid (ex_cfg SplitCost InitCost Belotti true true) f)) [0; 2; 3; 9] =
    [Err NonTermination; Err NonTermination; Ok Feasible; Ok Feasible] /\
  map (fun f => length (a_log (snd (run (brute_world exMid) exMid (ex_cfg SplitCost InitCost Belotti true true) f)))) [0; 1; 2; 3; 9] = [0; 2; 4; 5; 5].
Proof.
  split; [|split].
  - exists (snd (run (brute_world exMid) exMid (ex_cfg SplitCost InitCost Belotti true true) 9)). split; [|vm_compute; auto].
    exists 9, (c_fuel (ex_cfg SplitCost InitCost Belotti true true)). rewrite with_rounds_same. split; [|discriminate].
    set (o := run _ _ _ _). assert (E : fst o = Ok Feasible) by (vm_compute; reflexivity). destruct o. cbn in *. now subst.
  - intros r s (fuel & n & E & N). destruct (proj1 cycle_example SplitCost InitCost Belotti true ltac:(discriminate) ltac:(discriminate) ltac:(discriminate)) as (H1 & H2 & H3 & H4 & H5 & H6 & H7 & H8).
    destruct (never_ends_everywhere (brute_world exC) (with_rounds (ex_cfg SplitCost InitCost Belotti true true) n) H1 H2 H3
      ltac:(destruct H4; constructor; assumption)
      ltac:(destruct H5 as [O1 O2 O3 O4]; constructor; try assumption; right; destruct O3 as [(X & _)|O3]; [discriminate X|exact O3]) H6 H7 H8 fuel) as [s' X].
    rewrite X in E. injection E as <- _. congruence.
  - vm_compute. auto.
Qed.
