(** Hypotheses and outcomes of the statements on runs with continuous variables. *)
From Coq Require Import Qabs.
From Verif Require Import Base Spec Instance OptModels Initial Bounds Refine CostRefine Merge Adaptive AdaptiveSpec.

(** Feasibility within 1e-6 brings less than 1e-3. *)
Definition near (I : inst) : Prop :=
  forall x, cc_feasible I tol6 x -> exists y, cc_feasible I 0 y /\ (obj I x < obj I y + (1 # 1000))%Q.
(** For continuous variables every model is solved exactly. *)
Definition exact_if_cont (w : world) (I : inst) : Prop :=
  i_cont I = true -> forall t m, m_cont m = true -> outcome_exact m (w_solve w t m).

(** Entry by entry: numpy's closeness with the default tolerances. *)
Definition close_to (x y : list Q) : Prop :=
  forall i, i < length x -> i < length y -> (Qabs (nth i x 0%Q - nth i y 0%Q) <= (1 # 100000000) + (1 # 100000) * Qabs (nth i y 0%Q))%Q.
(** The model of the relaxation in state s. *)
Definition relaxation (cf : cfg) (s : ast) (limit : Q) : res model :=
  cclp_model (a_view s) (c_bigM cf) (c_lazy cf) (a_bigM s)
    (get_z_start (match a_zUB s with Some z => z | None => [] end) (ms_deleted (a_ms s))) (prune_indices (a_costs s) (a_vLB s)) (1 # 100000000) limit.

(** The run stops at the sanity check of the relaxation (continuous variables): the point returned by the solver is close to the previous one. *)
Definition close_failed (w : world) (I : inst) (cf : cfg) (e : exn) (s : ast) : Prop :=
  i_cont I = true /\ exists limit m t x z v b, relaxation cf s limit = Ok m /\ w_solve w t m = Solved x z v b /\
    e = AssertionError /\ a_merged s = false /\ exists y, a_xUB s = Some y /\ close_to x y.
