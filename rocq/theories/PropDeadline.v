(** Time limits handed to Gurobi: C81. *)
From Coq Require Import String.
From Verif Require Import Base Spec Instance OptModels Initial Bounds Refine CostRefine Merge Violations BigM Adaptive AdaptiveSpec
  AdaptiveEx AdaptiveEx2 LogSpec LogEx Milp Report Main BruteForce Ex DeadlineFacts DeadlineEx.

(** ** C81 *)
(** solve_cclp, which both methods use: it fails with Gurobi's error exactly when the time needed to build the model exceeds the time
    given. *)
Theorem C81_error : forall w V ub lz bM st pr time gap m0 s, cclp_model V ub lz bM st pr gap time = Ok m0 ->
  ((exists s', solve_cclp w V ub lz bM st pr time gap s = (Err GurobiError, s')) <->
   (time - (w_clock w (S (a_t s)) - w_clock w (a_t s)) < 0)%Q).
Proof. exact cclp_error. Qed.
Print Assumptions C81_error.

(** The relaxation of the adaptive method, solved from a state within the time limit: the limit that Gurobi receives ends at the deadline
    start + time limit, up to the delay between the first two readings of the clock. *)
Theorem C81_deadline : forall w I cf s x z vo vb s', in_time w cf (a_start s) (a_t s) -> partition_bound w I cf s = (Ok (x, z, vo, vb), s') ->
  exists t m limit, w_solve w t m = Solved x z vo vb /\ m_time m = Some limit /\ (0 <= limit)%Q /\
    (w_clock w (a_t s + 2) + limit == a_start s + c_limit cf + (w_clock w (a_t s + 1) - w_clock w (a_t s)))%Q.
Proof. exact deadline. Qed.
Print Assumptions C81_deadline.

(** After the deadline no relaxation is solved: the clock advances while the model is built. *)
Theorem C81_too_late : forall w I cf s, ~ in_time w cf (a_start s) (a_t s) -> (w_clock w (a_t s + 1) < w_clock w (a_t s + 2))%Q ->
  forall r s', partition_bound w I cf s <> (Ok r, s').
Proof. exact too_late. Qed.
Print Assumptions C81_too_late.

(** MilpSolver: a solve that ends has computed its big M's within the time limit. *)
Theorem C81_milp_in_time : forall w I cf ub meth s bt s', (forall t, (w_clock w t < w_clock w (S t))%Q) -> milp_solve w I cf ub meth s = (Ok bt, s') ->
  forall b, bt = Some b -> (b < c_limit cf)%Q.
Proof. exact milp_in_time. Qed.
Print Assumptions C81_milp_in_time.

(** main.py, methods 1 and 2: a result is written only if the big M's take less than the hour. *)
Theorem C81_main_in_time : forall w I name path fuel rfuel m r files, m = 1%Z \/ m = 2%Z -> (forall t, (w_clock w t < w_clock w (S t))%Q) ->
  main w I name path fuel rfuel m = (r, files) -> files <> [] ->
  exists b s, milp_run w I (cfgM rfuel) true (if (m =? 1)%Z then Song else Belotti) = (Ok (Some b), s) /\ (b < 3600)%Q.
Proof. exact main_in_time. Qed.
Print Assumptions C81_main_in_time.

(** Refuted: a run whose time ends stops with the verdict TimeUp.  Without any interruption the adaptive method ends with Gurobi's error when
    its time ends between the head of the loop and the relaxation. *)
Theorem C81_time_up_refuted : exists w I cf fuel s, (forall t, w_clock w t < w_clock w (S t))%Q /\ (forall t, w_intr w t = false) /\
  run w I cf fuel = (Err GurobiError, s).
Proof. exact limit_refuted. Qed.
Print Assumptions C81_time_up_refuted.

(** Refuted: main.py writes a result when the time ends.  Method 2 ends with Gurobi's error and writes no file. *)
Theorem C81_result_refuted : exists w I name path fuel rfuel, (forall t, w_clock w t < w_clock w (S t))%Q /\ (forall t, w_intr w t = false) /\
  main w I name path fuel rfuel 2 = (Err GurobiError, []).
Proof. exact main_refuted. Qed.
Print Assumptions C81_result_refuted.

(** One second per call.  Adaptive method: a limit of 59 or 61 seconds gives TimeUp, 60 seconds an error.  MilpSolver with Belotti's big M's:
    the error with 10 seconds, the optimum with 20 (16 for the big M's). *)
Example C81_example : map (fun q => let '(r, s) := tick_run q in (r, a_t s)) [59; 60; 61]%Q = [(Ok TimeUp, 60); (Err GurobiError, 63); (Ok TimeUp, 67)] /\
  map (fun q => show_milp (milp_ticks q)) [10; 20]%Q = [(Err GurobiError, 21, NInf, PInf); (Ok (Some 16%Q), 26, Fin 5, Fin 5)].
Proof. vm_compute. split; reflexivity. Qed.
(** The relaxation of the second turn of that run: asked for at second 60, deadline 65 - 5. *)
Example C81_late_example : first_late = Some (60, 5%Q, Err GurobiError).
Proof. vm_compute. reflexivity. Qed.
(** main.py, methods 1 and 2, with 1, 100, 300 and 2000 seconds per call. *)
Example C81_main_example : map (fun q => map (main_files q) [1; 2]%Z) [1; 100; 300; 2000]%Q =
  [[(Ok tt, ["p"%string]); (Ok tt, ["p"%string])]; [(Ok tt, ["p"%string]); (Ok tt, ["p"%string])];
   [(Ok tt, ["p"%string]); (Err GurobiError, [])]; [(Err GurobiError, []); (Err GurobiError, [])]].
Proof. vm_compute. reflexivity. Qed.
