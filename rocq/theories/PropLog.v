(** Property C72: iteration log, time tests and lower-bound model of a turn. *)
From Verif Require Import Base BaseFacts Spec Instance OptModels Initial Bounds Refine CostRefine Merge Adaptive AdaptiveSpec
  AdaptiveEx LogSpec AdaptiveLog LogEx.
From Coq Require Import Sorting.Sorted.

(** ** C72 *)
(** However the run ends.  ks: number of the call of the clock that precedes each row. *)
Theorem C72_log : forall w I cf fuel r s, run w I cf fuel = (r, s) ->
  a_start s = w_clock w 0 /\
  exists ks, StronglySorted lt ks /\ Forall (fun k => 0 < k < a_t s) ks /\
    Forall2 (log_entry (w_clock w) (w_clock w 0)) (a_log s) ks.
Proof. exact log_times. Qed.
Print Assumptions C72_log.

Theorem C72_log_order : forall w I cf fuel r s, clock_mono w -> run w I cf fuel = (r, s) ->
  StronglySorted (fun a b => l_time a <= l_time b)%Q (a_log s) /\
  Forall (fun e => 0 <= l_time e <= w_clock w (a_t s) - w_clock w 0)%Q (a_log s).
Proof. exact log_order. Qed.
Print Assumptions C72_log_order.

(** Every turn begins just after a successful time test, and so does its split. *)
Theorem C72_turn_in_time : forall w I cf s, head_reach w I cf s ->
  a_start s = w_clock w 0 /\ exists t, a_t s = S t /\ in_time w cf (w_clock w 0) t.
Proof. exact head_tested. Qed.
Print Assumptions C72_turn_in_time.

Theorem C72_split_in_time : forall w I cf s x s1, bound_phase w I cf s = (Ok (inr x), s1) ->
  exists t, a_t s <= t /\ a_t s1 = S t /\ in_time w cf (a_start s) t.
Proof. exact split_tested. Qed.
Print Assumptions C72_split_in_time.

(** The time limit is reached when the loop is left for it. *)
Theorem C72_late_turn : forall w I cf s s', iteration w I cf s = (Ok TimeUp, s') ->
  exists t, a_t s <= t < a_t s' /\ ~ in_time w cf (a_start s) t.
Proof. exact late_turn. Qed.
Print Assumptions C72_late_turn.

Theorem C72_late : forall w I cf fuel s, run w I cf fuel = (Ok TimeUp, s) ->
  exists t, 0 < t < a_t s /\ ~ in_time w cf (w_clock w 0) t.
Proof. exact late_run. Qed.
Print Assumptions C72_late.

(** A turn that reaches the gap test solves a lower-bound model, three calls after a successful time test: the clock,
    two points of interruption and the solver. *)
Theorem C72_lower_model : forall w I cf, (forall r, (0 <= w_norm w r)%Q) -> argsort_ok (w_argsort w) ->
  forall s r s1, head_reach w I cf s -> bound_phase w I cf s = (Ok r, s1) -> r <> inl Feasible -> r <> inl TimeUp ->
  exists t m, a_t s < t < a_t s1 /\ a_t s <= t - 3 /\ in_time w cf (a_start s) (t - 3) /\
    lower_model I (a_vLB s) (lb_scen (a_lb s1)) m /\ lower_update (w_solve w t m) (a_vLB s) (a_xLB s) (a_vLB s1) (a_xLB s1).
Proof. exact asked_turn. Qed.
Print Assumptions C72_lower_model.

(** One second per call. *)
Example C72_example : map (fun q => show_timed (tick_run q)) [15; 28; 33; 1000]%Q =
  [(Ok TimeUp, 21, []);
   (Ok TimeUp, 30, [(1, 27%Q, Fin (-14), Fin (-19), Some (Fin (5 # 14)), 4)]);
   (Ok TimeUp, 36, [(1, 27%Q, Fin (-14), Fin (-19), Some (Fin (5 # 14)), 4); (1, 33%Q, Fin (-14), Fin (-19), Some (Fin (5 # 14)), 4)]);
   (Ok Feasible, 111,
    [(1, 27%Q, Fin (-14), Fin (-19), Some (Fin (5 # 14)), 4); (1, 33%Q, Fin (-14), Fin (-19), Some (Fin (5 # 14)), 4);
     (2, 71%Q, Fin (-14), Fin (-18), Some (Fin (2 # 7)), 6); (2, 77%Q, Fin (-14), Fin (-18), Some (Fin (2 # 7)), 6);
     (3, 107%Q, Fin (-14), Fin (-14), Some (Fin 0), 7)])].
Proof. vm_compute. reflexivity. Qed.
Example C72_clock_example : clock_mono (tick_world exS_world).
Proof. exact tick_clock_mono. Qed.
Example C72_model_example : show_phase (phase_state 1000 1) = Some (60, 80, Fin 14, Fin 14, [0; 2; 3; 6; 8; 7],
  [CLe [7; 9; 4; 2]%Q 17; CLe [0; 6; 2; 12]%Q 17; CLe [0; 8; 5; 3]%Q 17; CLe [8; 5; 0; 0]%Q 17; CGe [5; 5; 9; 4]%Q (Fin 14);
   CLe [4; 8; 10; 1]%Q 17; CLe [3; 9; 12; 8]%Q 17; CGe [5; 5; 9; 4]%Q (Fin 14)]).
Proof. vm_compute. reflexivity. Qed.
