(** What the result files show of the state (C92). *)
From Verif Require Import Base Spec Instance OptModels Initial Adaptive Main ResultText.
From Coq Require Import String.

(** Bounds, with their types, starting time, iteration number, size of the partition last loaded, and log. *)
Definition shown (s : ast) : (ext * bool * ext * bool * Q) * (nat * nat * list logrow) :=
  ((a_vUB s, a_npU s, a_vLB s, a_npL s, a_start s), (a_iter s, v_k (a_view s), a_log s)).
(** The same without the lower bound and the size. *)
Definition shown_fixed (s : ast) : (ext * bool * Q) * (nat * list logrow) := ((a_vUB s, a_npU s, a_start s), (a_iter s, a_log s)).

(** main.py:84-118, where an exception KeyboardInterrupt leaves the objects as changed by [mess]: partitions, models or lists that are half
    updated. *)
Section Messy.
  Variable mess : ast -> ast.
  Variable w : world.
  Variable I : inst.
  Variables name path ipath : string.
  Variable info : bool.
  Variable fuel : nat.
  Definition messy_adaptive (cf : cfg) (kws : list string) (split init : string) : res unit * list (string * text) :=
    match construct w I cf (ast0 I) with
    | (Err e, _) => (Err e, [])
    | (Ok b, s) =>
        let write (s' : ast) :=
          match adaptive_file name I cf split init "rescaled_max_violation" true (0 <? a_iter s')%nat (Some (w_clock w (a_t s'))) s' with
          | Ok t => (Ok tt, (path, t) :: if info then [(ipath, iteration_file s')] else [])
          | Err e => (Err e, [])
          end in
        match bind_keywords solve_params 1 kws with
        | Err e => (Err e, [])
        | Ok _ =>
            match solve w I cf fuel b s with
            | (Ok _, s') => write s'
            | (Err KeyboardInterrupt, s') => write (mess s')
            | (Err e, _) => (Err e, [])
            end
        end
    end.
End Messy.
