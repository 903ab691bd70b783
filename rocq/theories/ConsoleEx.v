(** Example of the console output (C75). *)
From Coq Require Import Ascii String.
From Verif Require Import Base Spec Instance OptModels Bounds Refine CostRefine Merge Violations BigM Adaptive AdaptiveEx AdaptiveEx2 LogEx ResultText Console.

(** The lines printed at the head of turn n (from 0), after e seconds. *)
Definition printed_at (n : nat) (e : Q) : list string :=
  match phase_state 1000 n with
  | Some (s, _, _) =>
      match compute_gap (a_vUB s) (a_npU s) (a_vLB s) (a_npL s) with
      | Ok g => map string_of_list_ascii (iteration_lines (a_iter s) (a_vUB s) (a_vLB s) g e)
      | Err _ => []
      end
  | None => []
  end.
