(** What the result files show of the state (shown, shown_fixed, messy_adaptive in ShownSpec.v). *)
From Verif Require Import Base Spec Instance OptModels Initial Adaptive Main ResultText ShownSpec ShownFacts ShownEx.

(** ** C92 *)

(** The files depend on nothing else. *)
Theorem C92_files : forall name I cf split init proj solved started final s s', shown s = shown s' ->
  adaptive_file name I cf split init proj solved started final s = adaptive_file name I cf split init proj solved started final s' /\
  iteration_file s = iteration_file s'.
Proof. exact shown_file. Qed.
Print Assumptions C92_files.

(** So it does not matter in which state an interruption leaves everything else. *)
Theorem C92_messy : forall mess w I name path ipath info fuel cf kws split init, (forall s, shown (mess s) = shown s /\ a_t (mess s) = a_t s) ->
  messy_adaptive mess w I name path ipath info fuel cf kws split init = main_adaptive_text w I name path ipath info fuel cf kws split init.
Proof. exact messy_same. Qed.
Print Assumptions C92_messy.

(** Computing big M's and refining, whether they end or raise, change nothing that is shown. *)
Theorem C92_phases : forall w I cf s, shown (snd (big_M w I cf s)) = shown s /\ shown (snd (refine w I cf s)) = shown s.
Proof. exact (fun w I cf s => conj (big_M_shown w I cf s) (refine_shown w I cf s)). Qed.
Print Assumptions C92_phases.

(** Splitting and merging, whether they end or raise, change only the lower bound and the size, which is the old one or the number of subsets
    of the new partition. *)
Theorem C92_split : forall w I cf s, let s' := snd (split_step w I cf s) in
  shown_fixed s' = shown_fixed s /\ (v_k (a_view s') = v_k (a_view s) \/ (v_k (a_view s') = a_nb s' /\ a_nb s' = length (a_part s'))).
Proof. exact (fun w I cf s => conj (split_shown w I cf s) (split_sized w I cf s)). Qed.
Print Assumptions C92_split.
Theorem C92_merge : forall w I cf x R nc s, let s' := snd (merge_step w I cf x R nc s) in
  shown_fixed s' = shown_fixed s /\ (v_k (a_view s') = v_k (a_view s) \/ (v_k (a_view s') = a_nb s' /\ a_nb s' = length (a_part s'))).
Proof. exact (fun w I cf x R nc s => conj (merge_shown w I cf x R nc s) (merge_sized w I cf x R nc s)). Qed.
Print Assumptions C92_merge.

(** Changing all the other fields of a final state leaves the files; changing any of the shown ones changes them. *)
Example C92_small :
  map (fun s => text_eqb (shown_text s) (shown_text end_state))
    [wreck end_state; set_vUB (Fin 3) false end_state; set_vLB (Fin 3) false end_state; set_start 1 end_state; set_iter 7 end_state; resized 9 end_state;
     set_log [] end_state] = [true; false; false; false; false; false; false] /\
  text_eqb (shown_text (zero_state true)) (shown_text (zero_state false)) = false /\
  text_eqb (shown_text (zero_state' true)) (shown_text (zero_state' false)) = false.
Proof. exact shown_example. Qed.
