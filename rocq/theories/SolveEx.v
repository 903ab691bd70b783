(** Models solved by runs on a small instance (C85). *)
From Coq Require Import Sorting.Sorted.
From Verif Require Import Base BaseFacts Spec Instance OptModels Initial Adaptive AdaptiveSpec AdaptiveEx AdaptiveEx2 Ex Milp MilpEx
  SolveSpec SolveRuns.

(** The solver is interrupted at time t. *)
Definition stop_at (w : world) (t : nat) : world :=
  with_solve w (fun t' m => if t' =? t then Interrupted else w_solve w t' m).
(** Times at which an interruption of the solver is seen. *)
Definition stops {A} (w : world) (go : world -> res A * ast) : list nat :=
  filter (fun t => match fst (go (stop_at w t)) with Err KeyboardInterrupt => true | _ => false end) (seq 0 (a_t (snd (go w)))).
Definition mid_runs (cf : cfg) := stops (brute_world exMid) (fun w => run w exMid cf 9).

Lemma stops_solved {A} w (go : world -> res A * ast) L : fst (go w) <> Err KeyboardInterrupt -> models_solved w go L ->
  length (stops w go) <= length L.
Proof.
  intros NK (S1 & D1 & _). rewrite <- (map_length fst L). apply NoDup_incl_length; [apply NoDup_filter, seq_NoDup|].
  intros t Ht. apply filter_In in Ht as [_ Ht]. destruct (in_dec Nat.eq_dec t (map fst L)) as [|N]; [assumption|]. exfalso. apply NK.
  rewrite <- (D1 (fun t' m => if t' =? t then Interrupted else w_solve w t' m)).
  - fold (stop_at w t). destruct (fst (go (stop_at w t))) as [a|[]]; discriminate || reflexivity.
  - intros t' m Hq. destruct (t' =? t) eqn:E; [|reflexivity]. apply Nat.eqb_eq in E. subst t'. exfalso. apply N. apply (in_map fst) in Hq. exact Hq.
Qed.
Lemma solve_example : let w := brute_world exMid in
  (i_k exMid = 4 /\ i_m exMid = 1 /\ tolerated exMid = 1) /\
  (exists L, models_solved w (fun w => run w exMid ex_plain 9) L /\ 10 <= length L <= 11) /\
  (exists L, models_solved w (fun w => run w exMid (ex_cfg SplitCost InitCost Belotti false true) 9) L /\ 22 <= length L <= 23) /\
  (exists L, models_solved w (fun w => run w exMid (ex_cfg SplitCost InitCost Belotti true true) 3) L /\ 14 <= length L <= 33) /\
  (exists L, models_solved w (fun w => milp_run w exMid ex_plain true Belotti) L /\ length L = 9).
Proof.
  cbv zeta. set (w := brute_world exMid). assert (W : wf_inst exMid) by (apply wf_instb_ok; reflexivity).
  assert (O : oracles_ok w exMid) by (apply ex_oracles, W). assert (E : (0 <= i_eps exMid)%Q) by (vm_compute; discriminate).
  split; [vm_compute; auto|]. split; [|split; [|split]].
  - destruct (models_unmerged w exMid ex_plain 9 O W E eq_refl) as (L & H & K). exists L. split; [exact H|]. split; [|exact K].
    assert (C : length (mid_runs ex_plain) = 10) by (vm_compute; reflexivity). rewrite <- C.
    apply stops_solved; [vm_compute; discriminate|exact H].
  - destruct (models_unmerged w exMid (ex_cfg SplitCost InitCost Belotti false true) 9 O W E eq_refl) as (L & H & K). exists L. split; [exact H|]. split; [|exact K].
    assert (C : length (mid_runs (ex_cfg SplitCost InitCost Belotti false true)) = 22) by (vm_compute; reflexivity). rewrite <- C.
    apply stops_solved; [vm_compute; discriminate|exact H].
  - destruct (models_turns w exMid (ex_cfg SplitCost InitCost Belotti true true) 3 O W E) as (L & H & K). exists L. split; [exact H|]. split; [|exact K].
    assert (C : length (stops w (fun w => run w exMid (ex_cfg SplitCost InitCost Belotti true true) 3)) = 14) by (vm_compute; reflexivity). rewrite <- C.
    apply stops_solved; [vm_compute; discriminate|exact H].
  - destruct (models_milp w exMid ex_plain true Belotti W) as (L & H & K). exists L. split; [exact H|]. cbn in K.
    assert (C : length (stops w (fun w => milp_run w exMid ex_plain true Belotti)) = 9) by (vm_compute; reflexivity).
    assert (9 <= length L); [|lia]. rewrite <- C at 1. apply stops_solved; [vm_compute; discriminate|exact H].
Qed.
