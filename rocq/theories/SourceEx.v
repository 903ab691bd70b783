(** Runs with other random choices, split models and sorts. *)
From Coq Require Import Permutation.
From Verif Require Import Base Spec Instance OptModels Initial Adaptive AdaptiveSpec AdaptiveEx AdaptiveEx2 Ex Milp SourceSpec SourceFacts.

Definition no_split (t : nat) (S T : list nat) : acc_outcome := AccInterrupted.
Definition sorted_back (lt : nat -> nat -> bool) (l : list nat) : list nat := rev l.
Definition rotated (k t n : nat) : list nat := skipn k (seq 0 n) ++ firstn k (seq 0 n).
Definition odd_world (k : nat) (I : inst) : world := other_sources (brute_world I) (rotated k) no_split sorted_back.
Definition odd_run (k : nat) (I : inst) (cf : cfg) :=
  let '(r, s) := run (odd_world k I) I cf 20 in (r, length (a_log s), a_vLB s, a_vUB s, a_iter s, a_part s).
Definition random_cfg : cfg := ex_cfg SplitRandom InitRandom Belotti false true.

Lemma rotated_perm k t n : Permutation (rotated k t n) (seq 0 n).
Proof. unfold rotated. rewrite Permutation_app_comm, firstn_skipn. reflexivity. Qed.

Lemma random_refuted : ~ (forall w I cf perm perm' fuel,
  (forall t n, Permutation (perm t n) (seq 0 n)) -> (forall t n, Permutation (perm' t n) (seq 0 n)) ->
  let s := snd (run (other_sources w perm (w_acc w) (w_sort w)) I cf fuel) in
  let s' := snd (run (other_sources w perm' (w_acc w) (w_sort w)) I cf fuel) in
  a_iter s = a_iter s' /\ length (a_log s) = length (a_log s')).
Proof.
  intro H. destruct (H (brute_world exS) exS random_cfg (rotated 0) (rotated 2) 20 (rotated_perm 0) (rotated_perm 2)) as [E _].
  revert E. vm_compute. discriminate.
Qed.
Lemma source_example :
  map (fun k => odd_run k exS random_cfg) [0; 1; 2] =
    [(Ok Feasible, 5, Fin 14, Fin 14, 3, [[0; 8]; [1]; [2; 6]; [3]; [4]; [7]; [5]]);
     (Ok Feasible, 5, Fin 14, Fin 14, 3, [[5; 0]; [2; 6]; [7]; [4; 8]; [3]; [1]]);
     (Ok Feasible, 3, Fin 14, Fin 14, 2, [[2; 6; 1]; [3]; [4; 8]; [5; 0]; [7]])] /\
  run (other_sources (brute_world exS) (rotated 2) (w_acc (brute_world exS)) sorted_back) exS (ex_cfg SplitCost InitCost Belotti false true) 20 =
    run (brute_world exS) exS (ex_cfg SplitCost InitCost Belotti false true) 20.
Proof.
  split; [vm_compute; reflexivity|].
  apply run_same; [intros [E|E]; discriminate E|reflexivity|intros [_ E]; discriminate E].
Qed.
