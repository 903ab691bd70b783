(** Specification of the iteration log, of the time tests and of the lower-bound model of a turn (C72). *)
From Verif Require Import Base Spec Instance OptModels Adaptive.
From Coq Require Import Sorting.Sorted.

(** g is the relative gap between the bounds: (UB - LB) / LB; infinite as long as a bound is missing; for LB = 0 it is
    nan or infinite with the sign of UB. *)
Inductive gap_value : ext -> ext -> gapv -> Prop :=
| GV_none_low u : gap_value NInf u (Some PInf)
| GV_none_up l : l <> NInf -> gap_value l PInf (Some PInf)
| GV_ratio l u g : ~ (l == 0)%Q -> (g * l == u - l)%Q -> gap_value (Fin l) (Fin u) (Some (Fin g))
| GV_nan l u : (l == 0)%Q -> (u == 0)%Q -> gap_value (Fin l) (Fin u) None
| GV_plus l u : (l == 0)%Q -> (0 < u)%Q -> gap_value (Fin l) (Fin u) (Some PInf)
| GV_minus l u : (l == 0)%Q -> (u < 0)%Q -> gap_value (Fin l) (Fin u) (Some NInf)
| GV_other l u : l = PInf \/ u = NInf -> l <> NInf -> u <> PInf -> gap_value l u None.

(** Row r of the log is written after call number k of the outside world: its time is the time elapsed since [start] at
    that call, its gap is the one of the bounds of the row. *)
Definition log_entry (clock : nat -> Q) (start : Q) (r : logrow) (k : nat) : Prop :=
  l_time r = (clock k - start)%Q /\
  exists LB UB, l_nLB r = ext_opp LB /\ l_nUB r = ext_opp UB /\ gap_value LB UB (l_gap r).

(** Time limit not reached at call k. *)
Definition in_time (w : world) (cf : cfg) (start : Q) (k : nat) : Prop := (w_clock w k - start < c_limit cf)%Q.

(** Model of the lower-bound problem of the scenarios sel: some cuts c.x >= l with l <= LB, the one with LB among them
    unless LB < -1e6. *)
Definition lower_model (I : inst) (LB : ext) (sel : list nat) (m : model) : Prop :=
  m_obj m = i_c I /\ m_gap m = Some (1 # 10000)%Q /\ m_time m = None /\ m_n m = i_n I /\ m_cont m = i_cont I /\
  (forall tau z, model_ok tau m z [] -> det_feasible I sel tau z) /\
  (forall z, det_feasible I sel 0 z -> ext_leb LB (Fin (obj I z)) = true -> model_ok 0 m z []) /\
  (forall z, model_ok 0 m z [] -> ext_leb (Fin (- 1000000)) LB = true -> ext_leb LB (Fin (obj I z)) = true).

(** Bounds after the answer o to the lower-bound problem: the value of the answer (-1e6 for an infeasible model) if it is an
    improvement, with its point. *)
Definition lower_update (o : outcome) (LB : ext) (x : option (list Q)) (LB' : ext) (x' : option (list Q)) : Prop :=
  exists y v, ((o = Infeasible /\ y = None /\ v = (- 1000000)%Q) \/ exists p z b, o = Solved p z v b /\ y = Some p) /\
    ((ext_leb (Fin v) LB = false /\ LB' = Fin v /\ x' = y) \/ (ext_leb (Fin v) LB = true /\ LB' = LB /\ x' = x)).
