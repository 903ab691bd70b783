(** Bounds and values with continuous variables: C94. *)
From Verif Require Import Base BaseFacts Spec Instance OptModels Initial Bounds Refine CostRefine Merge Violations BigM Adaptive AdaptiveSpec NearSpec
  NearValue Mip AdaptiveEx AdaptiveEx2 ContEx NearValueEx.

(** However a run ends, and whatever the options, time limits and signals: no feasible point has a value above the upper bound. *)
Theorem C94_upper : forall w I cf tau delta, oracles_ok w I -> sort_spec (w_sort w) -> wf_inst I -> packing I -> eps_ok I ->
  solver_ok w I tau delta -> near I ->
  forall fuel r s, run w I cf fuel = (r, s) -> forall u, a_vUB s = Fin u -> upper_bound I u.
Proof. exact near_upper. Qed.
Print Assumptions C94_upper.

(** The lower bound exceeds the value of some feasible point by less than 0.001, besides the gap delta of the solver. *)
Theorem C94_lower : forall w I cf tau delta, oracles_ok w I -> sort_spec (w_sort w) -> wf_inst I -> packing I -> eps_ok I ->
  solver_ok w I tau delta -> near I ->
  forall fuel r s, run w I cf fuel = (r, s) -> forall l, a_vLB s = Fin l -> exists y, cc_feasible I 0 y /\ (l < obj I y + delta + (1 # 1000))%Q.
Proof. exact near_lower. Qed.
Print Assumptions C94_lower.

(** The value reported with "feasible". *)
Theorem C94_value : forall w I cf tau delta, oracles_ok w I -> sort_spec (w_sort w) -> wf_inst I -> packing I -> eps_ok I ->
  solver_ok w I tau delta -> near I ->
  forall fuel s, run w I cf fuel = (Ok Feasible, s) ->
  exists v, a_vUB s = Fin v /\ a_vLB s = Fin v /\ upper_bound I v /\ exists y, cc_feasible I 0 y /\ (v < obj I y + delta + (1 # 1000))%Q.
Proof. exact near_value. Qed.
Print Assumptions C94_value.

(** The bounds reported when the gap is reached. *)
Theorem C94_gap : forall w I cf tau delta, oracles_ok w I -> sort_spec (w_sort w) -> wf_inst I -> packing I -> eps_ok I ->
  solver_ok w I tau delta -> near I ->
  forall fuel s, (0 <= c_gap cf)%Q -> run w I cf fuel = (Ok GapReached, s) ->
  exists l u, a_vLB s = Fin l /\ a_vUB s = Fin u /\ (0 < l)%Q /\ (u <= l * (1 + c_gap cf))%Q /\ upper_bound I u /\
    exists y, cc_feasible I 0 y /\ (l < obj I y + (1 # 1000))%Q.
Proof. exact near_gap. Qed.
Print Assumptions C94_gap.

(** Conditions on the data only. *)
Theorem C94_continuous : forall w I cf delta, oracles_ok w I -> sort_spec (w_sort w) -> wf_inst I -> packing I -> eps_ok I -> solver_ok w I 0 delta ->
  i_cont I = true -> (forall s i, s < i_k I -> i < i_m I -> (qsum (i_c I) <= 1000 * rhs I s i)%Q) ->
  forall fuel r s, run w I cf fuel = (r, s) ->
  (forall u, a_vUB s = Fin u -> upper_bound I u) /\
  (forall l, a_vLB s = Fin l -> exists y, cc_feasible I 0 y /\ (l < obj I y + delta + (1 # 1000))%Q) /\
  (r = Ok Feasible -> exists v, a_vUB s = Fin v /\ a_vLB s = Fin v).
Proof. exact cont_value. Qed.
Print Assumptions C94_continuous.

(** The error is real: with an exact solver the value reported as optimal exceeds that of every feasible point. *)
Theorem C94_exact_refuted :
  (let w := mip_world exLoose in oracles_ok w exLoose /\ sort_spec (w_sort w) /\ wf_inst exLoose /\ packing exLoose /\ eps_ok exLoose /\ solver_ok w exLoose 0 0 /\
    exact_if_cont w exLoose) /\ i_cont exLoose = true /\
  (forall s i, s < i_k exLoose -> i < i_m exLoose -> (qsum (i_c exLoose) <= 1000 * rhs exLoose s i)%Q) /\
  (exists s, run (mip_world exLoose) exLoose ex_plain 1 = (Ok Feasible, s) /\ a_vUB s = Fin (1 # 2) /\ a_vLB s = Fin (1 # 2)) /\
  forall y, cc_feasible exLoose 0 y -> (obj exLoose y < 1 # 2)%Q.
Proof. exact loose_witness. Qed.
Print Assumptions C94_exact_refuted.

(** Two continuous instances; the second run fails the sanity check, its bounds are valid all the same. *)
Example C94_example :
  (let w := mip_world exPair in oracles_ok w exPair /\ sort_spec (w_sort w) /\ wf_inst exPair /\ packing exPair /\ eps_ok exPair /\ solver_ok w exPair 0 0) /\
  (let w := mip_world exSmall in oracles_ok w exSmall /\ sort_spec (w_sort w) /\ wf_inst exSmall /\ packing exSmall /\ eps_ok exSmall /\ solver_ok w exSmall 0 0) /\
  i_cont exPair = true /\ (forall s i, s < i_k exPair -> i < i_m exPair -> (qsum (i_c exPair) <= 1000 * rhs exPair s i)%Q) /\ near exPair /\
  i_cont exSmall = true /\ (forall s i, s < i_k exSmall -> i < i_m exSmall -> (qsum (i_c exSmall) <= 1000 * rhs exSmall s i)%Q) /\ near exSmall /\
  (let '(r, s) := run (mip_world exPair) exPair (ex_cfg SplitCost InitCost Belotti false true) 3 in
    r = Ok Feasible /\ a_vUB s = Fin (1794 # 529) /\ a_vLB s = Fin (1794 # 529)) /\
  (let '(r, s) := run (mip_world exSmall) exSmall ex_plain 4 in r = Err AssertionError /\ a_vUB s = Fin (3 # 20) /\ a_vLB s = Fin (374997 # 2500000)).
Proof. exact near_value_example. Qed.
