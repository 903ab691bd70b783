(** What it means that all methods return the optimum (C70). *)
From Verif Require Import Base Spec Instance OptModels Initial Bounds Refine CostRefine Merge Adaptive AdaptiveSpec.

(** The optimal value of the chance-constrained problem. *)
Definition optimum (I : inst) (v : Q) : Prop := (exists x, cc_feasible I 0 x /\ (obj I x == v)%Q) /\ forall y, cc_feasible I 0 y -> (obj I y <= v)%Q.
(** Every model is solved exactly. *)
Definition exact_answers (w : world) : Prop := forall t m, outcome_exact m (w_solve w t m).
(** No signal; the clock does not go back and stays below the time limit. *)
Definition undisturbed (w : world) (cf : cfg) : Prop :=
  (forall t, w_intr w t = false) /\ (forall t t', t <= t' -> (w_clock w t <= w_clock w t')%Q) /\
  forall t, (w_clock w t - w_clock w 0 < c_limit cf)%Q.
(** Result of the adaptive algorithm with binary variables, v being the optimal value. *)
Definition bin_result (I : inst) (cf : cfg) (vd : verdict) (s : ast) (v : Q) : Prop :=
  exists x l u, a_xLB s = Some x /\ a_vLB s = Fin l /\ a_vUB s = Fin u /\ cc_feasible I 0 x /\
    ((vd = Feasible /\ (l == v)%Q /\ (u == v)%Q /\ (obj I x == v)%Q) \/
     (vd = GapReached /\ (l <= obj I x /\ obj I x <= v /\ v <= u /\ u <= l * (1 + c_gap cf))%Q)).
(** Result with continuous variables: points feasible within 1e-6 count. *)
Definition cont_result (cf : cfg) (vd : verdict) (s : ast) (v : Q) : Prop :=
  exists l u, a_vLB s = Fin l /\ a_vUB s = Fin u /\ (l < v + (1 # 1000))%Q /\ (v <= u)%Q /\
    ((vd = Feasible /\ l = u) \/ (vd = GapReached /\ (u <= l * (1 + c_gap cf))%Q)).
