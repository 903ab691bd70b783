(** Specification of the split of a subset by cost (C65, C66): relaxed costs of the two sides of a split, best splits,
    exact answers of the split model, and the states of one refinement by cost. *)
From Verif Require Import Base Spec OptModels Refine CostRefine.

(** Points of the box satisfying the scenarios of a list: the relaxation of its deterministic problem
    (what AccObjModel.py:64-107 dualises). *)
Definition relax_sat (I : inst) (l : list nat) (x : list Q) : Prop := in_box (i_n I) x /\ subset_sat I 0 x l.
(** Splits of [scen] with an infeasible scenario on both sides (AccObjModel.py:125-140). *)
Definition admissible (scen inf l r : list nat) : Prop :=
  Permutation (l ++ r) scen /\ (exists s, In s l /\ In s inf) /\ (exists s, In s r /\ In s inf).
(** Both sides have relaxed cost at most V. *)
Definition split_within (I : inst) (l r : list nat) (V : Q) : Prop := forall x, relax_sat I l x \/ relax_sat I r x -> (obj I x <= V)%Q.
(** The relaxed cost of a split: the largest value of a point of either relaxation. *)
Definition split_cost (I : inst) (l r : list nat) (v : Q) : Prop :=
  split_within I l r v /\ exists x, (relax_sat I l x \/ relax_sat I r x) /\ (obj I x == v)%Q.
(** A split of least relaxed cost. *)
Definition best_split (I : inst) (scen inf l r : list nat) (v : Q) : Prop :=
  admissible scen inf l r /\ split_cost I l r v /\ forall l' r' v', admissible scen inf l' r' -> split_cost I l' r' v' -> (v <= v')%Q.

(** Optimal solutions of the split model (AccObjModel.py:20-25 minimises alpha). *)
Definition acc_optimal (I : inst) (scen inf : list nat) (p : acc_point) : Prop :=
  acc_feasible I scen inf p /\ forall q, acc_feasible I scen inf q -> (ap_alpha p <= ap_alpha q)%Q.
(** A solver that returns one at every call. *)
Definition acc_exact (I : inst) (acc : nat -> list nat -> list nat -> acc_outcome) : Prop :=
  forall t s i, acc_query I s i -> exists p, acc t s i = AccSolved p /\ acc_optimal I s i p.

(** States of the loop of one refinement by cost of [old] (Refiner.py:170-183), after the evaluation of all subsets (CostRefiner.py:54-78). *)
Inductive cost_round (acc : nat -> list nat -> list nat -> acc_outcome) (argsort : list Q -> list nat) (I : inst)
    (bad : nat -> bool) (costs : list Q) (vUB : ext) (cs0 : cstate) (old : list (list nat)) : rstate -> cstate -> Prop :=
| CRd_start cs1 : evaluate_accurate_splits acc (filter bad (seq 0 (i_k I))) old cs0 (argsort costs) = Ok cs1 ->
    cost_round acc argsort I bad costs vUB cs0 old (mkR old [] 0) cs1
| CRd_step st cs st' cs' : cost_round acc argsort I bad costs vUB cs0 old st cs -> r_cnt st < tolerated I + 1 - nb_bad bad old ->
    perform_accurate_split acc (filter bad (seq 0 (i_k I))) vUB st cs = Ok (st', cs') ->
    cost_round acc argsort I bad costs vUB cs0 old st' cs'.
