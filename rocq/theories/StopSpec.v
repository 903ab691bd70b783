(** Runs with additional signals (C88). *)
From Verif Require Import Base Spec Instance OptModels Initial Adaptive.

(** The same world with signals at the times given by [f]. *)
Definition with_intr (w : world) (f : nat -> bool) : world :=
  mkWorld (w_solve w) (w_acc w) (w_perm w) (w_argsort w) (w_norm w) (w_sort w) (w_clock w) f.

(** [s'] is at least as far as [s]: rows have been added to the iteration log, the iteration number and the lower bound did not decrease
    (unless the lower bound has been set to the upper bound at the end), and the upper bound increased at most by 1e-8 in each of n turns. *)
Record later (n : nat) (s s' : ast) : Prop := mkLater {
  lt_log : exists l, a_log s' = a_log s ++ l;
  lt_iter : a_iter s <= a_iter s';
  lt_lower : ext_leb (a_vLB s) (a_vLB s') = true \/ a_vLB s' = a_vUB s';
  lt_upper : ext_leb (a_vUB s') (ext_add (a_vUB s) (Qn n * (1 # 100000000))) = true
}.
