(** Proofs for C91. *)
From Verif Require Import Base BaseFacts Spec Instance InstanceFacts OptModels Initial Bounds Refine CostRefine Merge MergeFacts
  Knapsack Violations BigM Adaptive AdaptiveSpec AdaptiveWp Milp Main ResultText SourceSpec.

Lemma bind_same {A B} (m m' : M A) (f f' : A -> M B) s : m s = m' s -> (forall a s, f a s = f' a s) -> mbind m f s = mbind m' f' s.
Proof. intros E H. unfold mbind. rewrite E. destruct (m' s) as [[a|e] s1]; [apply H|reflexivity]. Qed.

Section Sources.
  Variable w : world.
  Variable I : inst.
  Variable cf : cfg.
  Variable perm : nat -> nat -> list nat.
  Variable acc : nat -> list nat -> list nat -> acc_outcome.
  Variable sort : (nat -> nat -> bool) -> list nat -> list nat.
  Hypothesis HP : uses_random cf -> perm = w_perm w.
  Hypothesis HA : uses_splits cf -> acc = w_acc w.
  Hypothesis HS : uses_sort cf -> sort = w_sort w.
  Local Notation w' := (other_sources w perm acc sort).

  Lemma construct_same s : construct w' I cf s = construct w I cf s.
  Proof.
    unfold construct. apply bind_same; [reflexivity|]. intros now s1. apply bind_same; [reflexivity|]. intros u s2. apply bind_same; [reflexivity|]. intros u' s3.
    apply bind_same; [|intros; reflexivity]. unfold setup_initial_partition.
    do 2 (apply bind_same; [reflexivity|]; intros ? ?). apply bind_same; [reflexivity|]. intros costs s6. apply bind_same; [reflexivity|]. intros s7 s8.
    apply bind_same; [|intros; reflexivity]. destruct (c_init cf) eqn:E; [cbn [w_perm other_sources]; now rewrite HP by (right; exact E)|reflexivity..].
  Qed.
  Lemma big_M_same s : big_M w' I cf s = big_M w I cf s.
  Proof.
    unfold big_M. apply bind_same; [reflexivity|]. intros s1 s2. destruct (c_bigM cf) eqn:EB; [|reflexivity]. cbn [andb]. destruct (min_size I <? a_nb s1); [|reflexivity].
    unfold update_big_M. do 2 (apply bind_same; [reflexivity|]; intros ? ?). destruct (c_method cf) eqn:EM; [reflexivity| |reflexivity..].
    cbn [w_sort other_sources]. rewrite HS by (split; assumption). reflexivity.
  Qed.
  Lemma refine_same s : refine w' I cf s = refine w I cf s.
  Proof.
    unfold refine. apply bind_same; [reflexivity|]. intros s1 s2. apply bind_same; [reflexivity|]. intros f s3. destruct (c_split cf) eqn:E.
    - destruct (c_acc cf); [reflexivity|]. cbn [w_perm other_sources]. rewrite HP by (left; exact E). reflexivity.
    - cbn [w_acc other_sources]. rewrite HA by exact E. reflexivity.
    - reflexivity.
  Qed.
  Lemma iteration_same s : iteration w' I cf s = iteration w I cf s.
  Proof.
    unfold iteration. apply bind_same.
    - unfold bound_phase. apply bind_same; [reflexivity|]. intros g s1. apply bind_same; [apply big_M_same|]. intros; reflexivity.
    - intros [v|x] s1; [reflexivity|]. apply bind_same; [|intros; reflexivity]. unfold split_step. apply bind_same; [apply refine_same|]. intros; reflexivity.
  Qed.
  Lemma loop_same : forall fuel s, main_loop w' I cf fuel s = main_loop w I cf fuel s.
  Proof.
    induction fuel as [|n IH]; intro s; cbn [main_loop]; [reflexivity|]. apply bind_same; [apply iteration_same|]. intros v s1. destruct v; [apply IH|reflexivity..].
  Qed.
  Lemma solve_same fuel num s : solve w' I cf fuel num s = solve w I cf fuel num s.
  Proof.
    unfold solve. apply bind_same; [reflexivity|]. intros v s1. apply bind_same; [|intros; reflexivity]. destruct v; [apply loop_same|reflexivity..].
  Qed.
  Lemma run_same fuel : run w' I cf fuel = run w I cf fuel.
  Proof. unfold run. apply bind_same; [apply construct_same|]. intros b s. apply solve_same. Qed.
  Lemma milp_same um meth : (um = true -> meth = Song -> sort = w_sort w) -> milp_run w' I cf um meth = milp_run w I cf um meth.
  Proof.
    intro H. unfold milp_run. apply bind_same; [reflexivity|]. intros u s1. unfold milp_solve. apply bind_same; [|intros; reflexivity].
    destruct um; [|reflexivity]. apply bind_same; [|intros; reflexivity]. unfold milp_compute_big_m. apply bind_same; [|intros; reflexivity].
    unfold milp_choose_big_m. destruct meth; [reflexivity| |reflexivity..]. cbn [w_sort other_sources]. rewrite H by reflexivity. reflexivity.
  Qed.
  Lemma adaptive_text_same name path ipath info fuel kws split init :
    main_adaptive_text w' I name path ipath info fuel cf kws split init = main_adaptive_text w I name path ipath info fuel cf kws split init.
  Proof.
    unfold main_adaptive_text. rewrite construct_same. destruct (construct w I cf (ast0 I)) as [[b|e] s]; [|reflexivity].
    destruct (bind_keywords solve_params 1 kws); [|reflexivity]. rewrite solve_same. reflexivity.
  Qed.
End Sources.

(** main.py: what each method does not depend on. *)
Lemma main_same repr w I name path ipath info fuel rfuel METHOD perm acc sort :
  (METHOD = 3%Z -> perm = w_perm w) -> (METHOD = 4%Z -> acc = w_acc w) -> (METHOD = 1%Z -> sort = w_sort w) ->
  main_text repr (other_sources w perm acc sort) I name path ipath info fuel rfuel METHOD = main_text repr w I name path ipath info fuel rfuel METHOD.
Proof.
  intros H3 H4 H1. unfold main_text.
  destruct (METHOD =? 1)%Z eqn:E1.
  { apply Z.eqb_eq in E1. unfold main_milp_text. rewrite milp_same by (intros; now apply H1). reflexivity. }
  destruct (METHOD =? 2)%Z; [unfold main_milp_text; rewrite milp_same by discriminate; reflexivity|].
  destruct (METHOD =? 3)%Z eqn:E3.
  { apply Z.eqb_eq in E3. apply adaptive_text_same; [intros _; now apply H3|discriminate|intros [_ X]; discriminate X]. }
  destruct (METHOD =? 4)%Z eqn:E4; [|reflexivity].
  apply Z.eqb_eq in E4. apply adaptive_text_same; [intros [X|X]; discriminate X|intros _; now apply H4|intros [_ X]; discriminate X].
Qed.
