(** Which models a run hands to the solver (C85): stated through the dependence of the result on the answers, without
    instrumenting the model of the code. *)
From Coq Require Import Sorting.Sorted.
From Verif Require Import Base Spec Instance OptModels Initial Adaptive.

(** The same world with another solver. *)
Definition with_solve (w : world) (f : nat -> model -> outcome) : world :=
  mkWorld f (w_acc w) (w_perm w) (w_argsort w) (w_norm w) (w_sort w) (w_clock w) (w_intr w).

(** [L] lists, in the order of time, the models solved by [go] in the world [w]:
    - another solver with the same answers to these models gives the same result, whatever it answers otherwise;
    - a solver that answers as before until one of these models and is interrupted there (Gurobi status 11) makes
      [go] end with KeyboardInterrupt. *)
Definition models_solved {A} (w : world) (go : world -> res A * ast) (L : list (nat * model)) : Prop :=
  StronglySorted lt (map fst L) /\
  (forall f, (forall t m, In (t, m) L -> f t m = w_solve w t m) -> go (with_solve w f) = go w) /\
  (forall f t m, In (t, m) L -> (forall t' m', In (t', m') L -> t' < t -> f t' m' = w_solve w t' m') ->
     f t m = Interrupted -> fst (go (with_solve w f)) = Err KeyboardInterrupt).

(** Knapsack models of the big M's of one update: one per constraint and scenario when some variable is integer. *)
Definition knapsacks (I : inst) (use : bool) (method : bigm_method) : nat :=
  match method with
  | Belotti => if use && negb (i_cont I) then i_k I * i_m I else 0
  | _ => 0
  end.
(** Scenario costs solved for the initial partition. *)
Definition first_costs (I : inst) (init : init_type) : nat :=
  match init with InitCost => i_k I | _ => 0 end.
