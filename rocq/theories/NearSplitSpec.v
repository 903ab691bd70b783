(** Split models that are not solved to optimality (C93). *)
From Verif Require Import Base Spec OptModels CostRefine SplitSpec.

(** Solutions of the split model within d of the optimum (AccObjModel.py:19-25 keeps Gurobi's gap). *)
Definition acc_within (I : inst) (d : Q) (scen inf : list nat) (p : acc_point) : Prop :=
  acc_feasible I scen inf p /\ forall q, acc_feasible I scen inf q -> (ap_alpha p <= ap_alpha q + d)%Q.
Definition acc_near (I : inst) (d : Q) (acc : nat -> list nat -> list nat -> acc_outcome) : Prop :=
  forall t s i, acc_query I s i -> exists p, acc t s i = AccSolved p /\ acc_within I d s i p.
(** An admissible split of relaxed cost at most v, where no admissible split costs less than v - d. *)
Definition near_split (I : inst) (d : Q) (scen inf l r : list nat) (v : Q) : Prop :=
  admissible scen inf l r /\ split_within I l r v /\ forall l' r' v', admissible scen inf l' r' -> split_cost I l' r' v' -> (v <= v' + d)%Q.
