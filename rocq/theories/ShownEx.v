(** The fields shown by the files of one run, and states that differ in the other fields. *)
From Coq Require Import String.
From Verif Require Import Base Spec Instance OptModels Initial Bounds Refine CostRefine Merge Adaptive AdaptiveSpec AdaptiveEx AdaptiveEx2 Ex Main ResultText StopSpec StopEx ShownSpec ShownFacts.

Local Open Scope string_scope.
Local Open Scope list_scope.
Definition shown_text (s : ast) : text :=
  match adaptive_file "exMid" exMid ex_plain "counter" "counter" "rescaled_max_violation" true true (Some 9%Q) s with Ok t => t | Err _ => [] end ++ iteration_file s.
Definition end_state : ast := snd (run_until 120).
(** All the fields that are not shown. *)
Definition wreck (s : ast) : ast :=
  set_part [[7]] (set_nb 0 (set_view (mkView 0 true [] (v_k (a_view s)) [] [] [] 7) (set_xUB None (set_xLB (Some [5%Q]) (set_zUB None (set_costs [] (set_sols [[1%Q]]
    (set_merged true (set_ms (mkMs [1] [2]) (set_ref cstate0 (set_fe None (set_bigM [[3%Q]] (set_perm 77 s))))))))))))).
Lemma wreck_shown s : shown (wreck s) = shown s /\ a_t (wreck s) = a_t s. Proof. split; reflexivity. Qed.

Definition resized (n : nat) (s : ast) : ast :=
  let V := a_view s in set_view (mkView (v_n V) (v_cont V) (v_c V) n (v_A V) (v_b V) (v_p V) (v_eps V)) s.
Definition zero_state (np : bool) : ast := set_vLB (Fin 0) np (set_vUB (Fin 3) false end_state).
Definition zero_state' (np : bool) : ast := set_vLB (Fin 0) false (set_vUB (Fin 3) np end_state).

Lemma shown_example :
  map (fun s => text_eqb (shown_text s) (shown_text end_state))
    [wreck end_state; set_vUB (Fin 3) false end_state; set_vLB (Fin 3) false end_state; set_start 1 end_state; set_iter 7 end_state; resized 9 end_state;
     set_log [] end_state] = [true; false; false; false; false; false; false] /\
  text_eqb (shown_text (zero_state true)) (shown_text (zero_state false)) = false /\
  text_eqb (shown_text (zero_state' true)) (shown_text (zero_state' false)) = false.
Proof. vm_compute. repeat split; reflexivity. Qed.
