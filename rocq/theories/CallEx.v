(** Split models of runs on small instances (C87). *)
From Verif Require Import Base BaseFacts Spec Instance OptModels Initial CostRefine Adaptive AdaptiveSpec AdaptiveEx AdaptiveEx2 CycleEx Ex CallSpec CallRuns.

(** All split models are interrupted from the n-th on. *)
Definition cut_from (w : world) (n : nat) : world :=
  with_acc w (fun t a b => if n <=? t then AccInterrupted else w_acc w t a b).
Lemma length_by {A} w (go : world -> res A * ast) L n : splits_solved w go L -> fst (go w) <> Err KeyboardInterrupt ->
  fst (go (cut_from w (S n))) <> Err KeyboardInterrupt -> fst (go (cut_from w n)) = Err KeyboardInterrupt -> length L = S n.
Proof.
  intros [D S1] NK H1 H2. destruct (lt_eq_lt_dec (length L) (S n)) as [[LT|E]|GT]; [|exact E|].
  - exfalso. apply NK. rewrite <- H2. f_equal. symmetry. apply D. intros t q Hq. rewrite (proj2 (Nat.leb_gt n t)); [reflexivity|].
    assert (t < length L) by (apply nth_error_Some; congruence). lia.
  - exfalso. apply H1. destruct (nth_error L (S n)) as [q|] eqn:E; [|apply nth_error_None in E; lia].
    apply (S1 _ (S n) q E).
    + intros t' q' LT _. now rewrite (proj2 (Nat.leb_gt (S n) t')).
    + now rewrite Nat.leb_refl.
Qed.
Lemma call_example :
  (exists L, splits_solved (brute_world exMid) (fun w => run w exMid (ex_cfg SplitCost InitCost Belotti true true) 9) L /\ distinct L /\
     L = [([1; 3], [1; 3]); ([0; 2; 3], [0; 2])]) /\
  (exists L, splits_solved (brute_world exC) (fun w => run w exC (ex_cfg SplitCost InitCost Belotti true true) 30) L /\ distinct L /\ length L = 3 /\
     fst (run (brute_world exC) exC (ex_cfg SplitCost InitCost Belotti true true) 30) = Err NonTermination).
Proof.
  split.
  - assert (O : oracles_ok (brute_world exMid) exMid) by (apply ex_oracles, wf_instb_ok; reflexivity). assert (HA := proj1 (proj2 O)).
    assert (E : (0 <= i_eps exMid)%Q) by (vm_compute; discriminate).
    destruct (splits_turns (brute_world exMid) exMid (ex_cfg SplitCost InitCost Belotti true true) 9 HA E) as (L & H1 & H2 & _).
    exists L. split; [exact H1|]. split; [exact H2|].
    apply (splits_unique _ (brute_world exMid) (fun w => run w exMid (ex_cfg SplitCost InitCost Belotti true true) 9)); [vm_compute; discriminate|exact H1|].
    assert (R : fst (run (brute_world exMid) exMid (ex_cfg SplitCost InitCost Belotti true true) 9) = Ok Feasible) by (vm_compute; reflexivity).
    assert (M : map fst (c_mem (a_ref (snd (run (brute_world exMid) exMid (ex_cfg SplitCost InitCost Belotti true true) 9)))) =
      [([1; 3], [1; 3]); ([0; 2; 3], [0; 2])]) by (vm_compute; reflexivity).
    rewrite <- M. apply splits_memory with (v := Feasible); [exact HA|exact E|]. rewrite <- R. apply surjective_pairing.
  - assert (O : oracles_ok (brute_world exC) exC) by (apply ex_oracles, wf_instb_ok; reflexivity). assert (HA := proj1 (proj2 O)).
    assert (E : (0 <= i_eps exC)%Q) by (vm_compute; discriminate).
    destruct (splits_turns (brute_world exC) exC (ex_cfg SplitCost InitCost Belotti true true) 30 HA E) as (L & H1 & H2 & _).
    exists L. split; [exact H1|]. split; [exact H2|]. split; [|vm_compute; reflexivity].
    apply (length_by _ _ L 2 H1); [vm_compute; discriminate|vm_compute; discriminate|vm_compute; reflexivity].
Qed.
