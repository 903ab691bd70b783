(** Loops without bounds on their turns (C89). *)
From Verif Require Import Base Spec Instance OptModels Initial Refine Adaptive.

(** Another bound on the turns of the loop of the random refiner. *)
Definition with_rounds (cf : cfg) (n : nat) : cfg :=
  mkCfg (c_split cf) (c_init cf) (c_proj cf) (c_acc cf) (c_limit cf) (c_gap cf) (c_bigM cf) (c_method cf) (c_merger cf) (c_lazy cf) n.

(** while True: turn() ..., left by break or by an exception (AdaptivePartitioner.py:290-328). *)
Inductive turns (w : world) (I : inst) (cf : cfg) : ast -> res verdict -> ast -> Prop :=
| T_end s v s' : iteration w I cf s = (Ok v, s') -> v <> Continue -> turns w I cf s (Ok v) s'
| T_raise s e s' : iteration w I cf s = (Err e, s') -> turns w I cf s (Err e) s'
| T_next s s1 r s' : iteration w I cf s = (Ok Continue, s1) -> turns w I cf s1 r s' -> turns w I cf s r s'.

(** while count < mu: shuffle, traverse; then the assertion (Refiner.py:170-183). *)
Inductive passes (perm : nat -> nat -> list nat) (flags : list bool) (inf : list nat) (mu : nat) : rstate -> nat -> res (rstate * nat) -> Prop :=
| P_end st t : r_cnt st = mu -> passes perm flags inf mu st t (Ok (st, t))
| P_assert st t : mu < r_cnt st -> passes perm flags inf mu st t (Err AssertionError)
| P_raise st t e : r_cnt st < mu ->
    traverse perm flags mu (count_infeasible (r_part st) inf) st (S t) (shuffle perm t (seq 0 (length (r_part st)))) = Err e ->
    passes perm flags inf mu st t (Err e)
| P_next st t st1 t1 o : r_cnt st < mu ->
    traverse perm flags mu (count_infeasible (r_part st) inf) st (S t) (shuffle perm t (seq 0 (length (r_part st)))) = Ok (st1, t1) ->
    passes perm flags inf mu st1 t1 o -> passes perm flags inf mu st t o.

(** The program ends with [r] in the state [s]. *)
Definition ends (w : world) (I : inst) (cf : cfg) (r : res verdict) (s : ast) : Prop :=
  exists fuel n, run w I (with_rounds cf n) fuel = (r, s) /\ r <> Err NonTermination.
