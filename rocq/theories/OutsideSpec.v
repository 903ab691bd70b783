(** Signals, time limits and models without an answer (C82). *)
From Verif Require Import Base Spec Instance OptModels Initial Bounds Refine CostRefine Merge Adaptive AdaptiveSpec.

(** The time limit is passed at some call. *)
Definition late (w : world) (cf : cfg) : Prop := exists t, (c_limit cf <= w_clock w t - w_clock w 0)%Q.
(** What may come from outside: a signal, Gurobi's error for a negative time limit, a model with a time limit that Gurobi leaves without a
    point. *)
Definition from_outside (w : world) (cf : cfg) (e : exn) : Prop :=
  (e = KeyboardInterrupt /\ ((exists t, w_intr w t = true) \/ (exists t m, w_solve w t m = Interrupted))) \/
  (e = GurobiError /\ late w cf) \/
  (e = AttributeError /\ exists t m, m_time m <> None /\ w_solve w t m = NoSolution).
(** The clock does not go back.  Unless a signal arrives, models without time limit are answered; for continuous variables the answers are
    exact. *)
Record steady (w : world) (I : inst) : Prop := mkSteady {
  st_mono : clock_mono w;
  st_answer : forall t m, m_cont m = i_cont I -> m_time m = None -> w_solve w t m = Interrupted \/ finished (w_solve w t m);
  st_exact : i_cont I = true -> forall t m, m_cont m = true ->
    match w_solve w t m with Interrupted | NoSolution => True | o => outcome_exact m o end
}.
(** Regular ends of a run. *)
Definition verdict_ok (w : world) (cf : cfg) (v : verdict) : Prop := v = TimeUp /\ late w cf \/ v = Feasible \/ v = GapReached.
