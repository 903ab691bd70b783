(** Hypotheses and statements on runs in which the subset costs are computed with Gurobi's default MIP gap (C73). *)
From Coq Require Import Qabs.
From Verif Require Import Base Spec Instance OptModels Initial Bounds Refine CostRefine Merge Adaptive AdaptiveSpec.

(** As [solver_ok], but the models for which the code sets no MIP gap (those of the evaluator) are left with a relative gap of
    at most [g] between bound and value. *)
Record solver_gap (w : world) (I : inst) (tau delta g : Q) : Prop := mkSolverGap {
  sg_tau : (0 <= tau /\ tau <= tol6)%Q;
  sg_delta : (0 <= delta)%Q;
  sg_ok : forall t m, outcome_ok tau m (w_solve w t m);
  sg_default : (0 <= g)%Q /\ forall t m x z v b, m_gap m = None -> w_solve w t m = Solved x z v b -> (b <= v + g * Qabs v)%Q;
  sg_gap : forall t m x z v b, m_gap m = Some (1 # 100000000)%Q -> w_solve w t m = Solved x z v b -> (b <= v + delta)%Q
}.
(** No feasible point has more than (1 + g) times the larger of the two bounds. *)
Definition upper_gap (I : inst) (g : Q) (vUB vLB : ext) : Prop :=
  forall x, cc_feasible I 0 x -> ext_leb (Fin (obj I x / (1 + g))%Q) vUB = true \/ ext_leb (Fin (obj I x / (1 + g))%Q) vLB = true.
(** Big M's that do not depend on the upper bound. *)
Definition free_of_bound (cf : cfg) : Prop := c_bigM cf = true -> c_method cf <> Belotti.
