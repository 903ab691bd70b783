(** Which split models a run solves (C87), as in SolveSpec: through the dependence of the result on the answers. *)
From Verif Require Import Base Spec Instance OptModels Initial Adaptive.

(** A question: the scenarios of a subset and the infeasible ones among them. *)
Definition question : Type := (list nat * list nat)%type.
Definition same_question (q q' : question) : Prop :=
  (forall s, In s (fst q) <-> In s (fst q')) /\ (forall s, In s (snd q) <-> In s (snd q')).

(** The same world with other answers to the split models. *)
Definition with_acc (w : world) (f : nat -> list nat -> list nat -> acc_outcome) : world :=
  mkWorld (w_solve w) f (w_perm w) (w_argsort w) (w_norm w) (w_sort w) (w_clock w) (w_intr w).

(** [L] lists, in order, the questions put to the solver of split models by [go] in the world [w]:
    - other answers to other questions give the same result;
    - if the model of a question is interrupted, [go] ends with KeyboardInterrupt. *)
Definition splits_solved {A} (w : world) (go : world -> res A * ast) (L : list question) : Prop :=
  (forall f, (forall t q, nth_error L t = Some q -> f t (fst q) (snd q) = w_acc w t (fst q) (snd q)) -> go (with_acc w f) = go w) /\
  (forall f t q, nth_error L t = Some q ->
     (forall t' q', t' < t -> nth_error L t' = Some q' -> f t' (fst q') (snd q') = w_acc w t' (fst q') (snd q')) ->
     f t (fst q) (snd q) = AccInterrupted -> fst (go (with_acc w f)) = Err KeyboardInterrupt).

(** No question is repeated. *)
Definition distinct (L : list question) : Prop :=
  forall t t' q q', t < t' -> nth_error L t = Some q -> nth_error L t' = Some q' -> ~ same_question q q'.
