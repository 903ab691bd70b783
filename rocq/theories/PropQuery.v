(** Property C61: the relaxation handed to the solver in each turn. *)
From Verif Require Import Base Spec Instance OptModels Initial Bounds Refine CostRefine Merge Adaptive AdaptiveSpec AdaptiveEx AdaptiveQuery QueryEx.

(** ** C61 *)
(** The model that was solved: rows of the current subsets, chance constraint, pruned subsets, start and limits. *)
Theorem C61_asked : forall w I cf s x z vo vb s', clock_mono w -> partition_bound w I cf s = (Ok (x, z, vo, vb), s') ->
  exists zUB m limit t, a_zUB s = Some zUB /\ relaxation_of cf s zUB limit m /\ w_solve w t m = Solved x z vo vb /\
    (0 <= limit)%Q /\ (limit <= Qmax (c_limit cf - (w_clock w (a_t s) - a_start s)) 0)%Q.
Proof. exact asked. Qed.
Print Assumptions C61_asked.

(** The point of a turn satisfies the subsets selected by the indicators, and these subsets are not split. *)
Theorem C61_selected_kept : forall w I cf tau, (tau <= tol6)%Q -> oracles_ok w I -> wf_inst I -> (0 <= i_eps I)%Q ->
  (forall t m, outcome_ok tau m (w_solve w t m)) -> (c_bigM cf = true -> i_cont I = false /\ 0 < i_n I) -> clock_mono w ->
  forall s s1 x R nc s2, step_reach w I cf s s1 x R nc s2 ->
  exists y z, x = Some y /\ a_zUB s2 = Some z /\ selects I y z (a_part s) /\
    forall c, c < length (a_part s) -> (nth c z 0 == 1)%Q -> nth c (a_part s2) [] = nth c (a_part s) [].
Proof. exact selected_kept. Qed.
Print Assumptions C61_selected_kept.

(** The start of the next relaxation selects the subsets selected by the previous one, wherever they are after the split and the
    merge, except the deleted ones. The hypothesis on the deleted list is needed: C27_main_loop_refuted. *)
Theorem C61_start_follows : forall w I cf tau, (tau <= tol6)%Q -> oracles_ok w I -> wf_inst I -> (0 <= i_eps I)%Q ->
  (forall t m, outcome_ok tau m (w_solve w t m)) -> (c_bigM cf = true -> i_cont I = false /\ 0 < i_n I) -> clock_mono w ->
  forall s s1 x R nc s2 s3 s4 s5 x' z' vo vb s6, step_reach w I cf s s1 x R nc s2 -> merge_step w I cf x R nc s2 = (Ok tt, s3) ->
  a_merged s3 = true \/ ms_deleted (a_ms s3) = [] -> next_iteration w cf s3 = (Ok Continue, s4) -> big_M w I cf s4 = (Ok tt, s5) ->
  partition_bound w I cf s5 = (Ok (x', z', vo, vb), s6) ->
  exists y z m t, x = Some y /\ a_zUB s1 = Some z /\ selects I y z (a_part s) /\ w_solve w t m = Solved x' z' vo vb /\
    forall j, In (j, 1%Q) (m_start m) <-> j < length (a_part s4) /\
      exists c, c < length (a_part s) /\ (nth c z 0 == 1)%Q /\ ~ In c (ms_deleted (a_ms s3)) /\ incl (nth c (a_part s) []) (nth j (a_part s4) []).
Proof. exact start_follows. Qed.
Print Assumptions C61_start_follows.

(** Two turns after a merge, the start still skips the subsets deleted then: it selects [7] instead of [5; 6]. *)
Example C61_example : map (start_after exS_world exS ex_merge) [0; 1; 2] =
  [Some ([[0; 4; 8]; [1; 5]; [2; 6]; [3; 7]], Some [0; 1; 0; 0]%Q, true, [2; 3], [[0; 8]; [1; 5; 2; 6; 3]; [7]; [4]], [(1, 1%Q)]);
   Some ([[0; 8]; [1; 5; 2; 6; 3]; [7]; [4]], Some [1; 0; 0; 0]%Q, false, [2; 3], [[0; 8]; [1; 2; 3]; [7]; [4]; [5; 6]], [(0, 1%Q)]);
   Some ([[0; 8]; [1; 2; 3]; [7]; [4]; [5; 6]], Some [1; 0; 0; 0; 1]%Q, false, [2; 3], [[0; 8]; [2; 1]; [7]; [4]; [5; 6]; [3]], [(0, 1%Q); (2, 1%Q)])] /\
  map (start_after exS_world exS (ex_cfg SplitCost InitCost Belotti true true)) [0; 1] =
  [Some ([[6; 5; 4]; [8; 0]; [1; 3]; [2; 7]], Some [0; 1; 0; 0]%Q, false, [], [[5]; [8; 0]; [1; 3]; [2; 7]; [6; 4]], [(1, 1%Q)]);
   Some ([[5]; [8; 0]; [1; 3]; [2; 7]; [6; 4]], Some [1; 1; 0; 0; 0]%Q, false, [], [[5]; [8; 0]; [1]; [2; 7]; [6; 4]; [3]], [(0, 1%Q); (1, 1%Q)])].
Proof. vm_compute. split; reflexivity. Qed.
