(** Changes of an instance with a known effect on its optimal value (C78). *)
From Verif Require Import Base Spec.

(** Another risk level. *)
Definition at_level (I : inst) (e : Q) : inst := mkInst (i_n I) (i_m I) (i_k I) (i_cont I) e (i_c I) (i_A I) (i_b I).
(** The scenarios l of I: in another order, several times. *)
Definition reselect (I : inst) (l : list nat) : inst :=
  mkInst (i_n I) (i_m I) (length l) (i_cont I) (i_eps I) (i_c I) (map (fun s => nth s (i_A I) []) l) (map (fun s => nth s (i_b I) []) l).
(** Rows multiplied by f, the objective by a. *)
Definition times (a : Q) (r : list Q) : list Q := map (Qmult a) r.
Definition scaled (I : inst) (a : Q) (f : nat -> nat -> Q) : inst :=
  mkInst (i_n I) (i_m I) (i_k I) (i_cont I) (i_eps I) (times a (i_c I))
    (map (fun s => map (fun i => times (f s i) (row I s i)) (seq 0 (i_m I))) (seq 0 (i_k I)))
    (map (fun s => map (fun i => (f s i * rhs I s i)%Q) (seq 0 (i_m I))) (seq 0 (i_k I))).
(** The items in the order q. *)
Definition pick (q : list nat) (r : list Q) : list Q := map (fun j => nth j r 0%Q) q.
Definition reorder (I : inst) (q : list nat) : inst :=
  mkInst (i_n I) (i_m I) (i_k I) (i_cont I) (i_eps I) (pick q (i_c I)) (map (map (pick q)) (i_A I)) (i_b I).
(** The same problem with larger capacities. *)
Definition larger (I J : inst) : Prop :=
  i_n I = i_n J /\ i_m I = i_m J /\ i_k I = i_k J /\ i_cont I = i_cont J /\ i_eps I = i_eps J /\ i_c I = i_c J /\ i_A I = i_A J /\
  forall s i, s < i_k I -> i < i_m I -> (rhs I s i <= rhs J s i)%Q.
