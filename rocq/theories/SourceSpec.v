(** Sources of nondeterminism (C91). *)
From Verif Require Import Base Spec Instance OptModels Initial Adaptive.

(** The same world with other random choices, other answers of the split models and another std::sort. *)
Definition other_sources (w : world) (perm : nat -> nat -> list nat) (acc : nat -> list nat -> list nat -> acc_outcome)
    (sort : (nat -> nat -> bool) -> list nat -> list nat) : world :=
  mkWorld (w_solve w) acc perm (w_argsort w) (w_norm w) sort (w_clock w) (w_intr w).

(** What is used by a configuration. *)
Definition uses_random (cf : cfg) : Prop := c_split cf = SplitRandom \/ c_init cf = InitRandom.
Definition uses_splits (cf : cfg) : Prop := c_split cf = SplitCost.
Definition uses_sort (cf : cfg) : Prop := c_bigM cf = true /\ c_method cf = Song.
