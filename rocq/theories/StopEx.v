(** Signals at different times of one run. *)
From Verif Require Import Base Spec Instance OptModels Initial Adaptive AdaptiveSpec AdaptiveEx AdaptiveEx2 Ex StopSpec.

(** The signal comes at step n. *)
Definition run_until (n : nat) := run (with_intr (brute_world exMid) (Nat.leb n)) exMid (ex_cfg SplitCost InitCost Belotti true true) 9.
Definition seen_until (n : nat) := (fst (run_until n), length (a_log (snd (run_until n))), a_vLB (snd (run_until n)), a_vUB (snd (run_until n)), a_iter (snd (run_until n))).

Lemma stop_example : map seen_until [10; 20; 30; 40; 70; 80; 110; 120] =
  [(Err KeyboardInterrupt, 0, NInf, PInf, 0); (Err KeyboardInterrupt, 0, NInf, Fin 10, 0); (Err KeyboardInterrupt, 1, NInf, Fin 10, 1);
   (Err KeyboardInterrupt, 2, Fin 5, Fin 10, 1); (Err KeyboardInterrupt, 2, Fin 5, Fin 10, 2); (Err KeyboardInterrupt, 4, Fin 5, Fin 10, 2);
   (Err KeyboardInterrupt, 4, Fin 5, Fin 10, 3); (Ok Feasible, 5, Fin 5, Fin 5, 3)] /\
  run_until 120 = run (brute_world exMid) exMid (ex_cfg SplitCost InitCost Belotti true true) 9.
Proof. vm_compute. split; reflexivity. Qed.
