(** Runs with different time limits (C90). *)
From Verif Require Import Base Spec Instance OptModels Initial Adaptive.

Definition timed (m : model) (q : Q) : model :=
  mkModel (m_n m) (m_cont m) (m_nz m) (m_obj m) (m_const m) (m_cstrs m) (m_start m) (m_gap m) (Some q) (m_lazy m).
(** The solver never needs all of its time: its answers do not depend on the limit. *)
Definition quick (w : world) : Prop := forall t m q q', w_solve w t (timed m q) = w_solve w t (timed m q').
(** Another time limit. *)
Definition limited (cf : cfg) (q : Q) : cfg :=
  mkCfg (c_split cf) (c_init cf) (c_proj cf) (c_acc cf) q (c_gap cf) (c_bigM cf) (c_method cf) (c_merger cf) (c_lazy cf) (c_fuel cf).
