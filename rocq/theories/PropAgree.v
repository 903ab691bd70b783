(** All methods return the optimal value: C70. *)
From Verif Require Import Base BaseFacts Spec Instance OptModels Initial Bounds Refine CostRefine Merge Violations ViolTable BigM Adaptive AdaptiveSpec NearSpec
  Milp AgreeSpec AgreeFacts AdaptiveEx AdaptiveEx2 EndEx ContEx AgreeEx.

(** The problem has an optimal solution, hence one optimal value. *)
Theorem C70_optimum_exists : forall I, wf_inst I -> packing I -> (0 <= i_eps I)%Q ->
  exists x, cc_feasible I 0 x /\ forall y, cc_feasible I 0 y -> (obj I y <= obj I x)%Q.
Proof. exact optimum_exists. Qed.
Print Assumptions C70_optimum_exists.

Theorem C70_optimum_unique : forall I v v', optimum I v -> optimum I v' -> (v == v')%Q.
Proof. exact optimum_unique. Qed.
Print Assumptions C70_optimum_unique.

(** MilpSolver, binary or continuous variables: no exception, an optimal solution, and both bounds equal to the optimal value. *)
Theorem C70_milp : forall w I cf, argsort_ok (w_argsort w) -> sort_spec (w_sort w) -> wf_inst I -> packing I -> eps_ok I -> (i_eps I < 1)%Q ->
  exact_answers w -> undisturbed w cf -> 0 < i_n I ->
  forall um meth, (um = true -> meth <> OtherM /\ (meth = Song -> tolerated I + 1 < i_k I)) ->
  exists bt s x v, milp_run w I cf um meth = (Ok bt, s) /\ (bt = None <-> um = false) /\ a_xLB s = Some x /\ a_vLB s = Fin v /\
    (exists u, a_vUB s = Fin u /\ (u == v)%Q) /\ (v == obj I x)%Q /\ cc_feasible I 0 x /\ optimum I v.
Proof. exact milp_total. Qed.
Print Assumptions C70_milp.

(** The two excluded cases raise. *)
Theorem C70_milp_unknown_method : forall w I cf, (forall t, w_intr w t = false) -> exists s, milp_run w I cf true OtherM = (Err ValueError, s).
Proof. exact milp_other. Qed.
Print Assumptions C70_milp_unknown_method.

Theorem C70_milp_song_raises : forall w I cf, (forall t, w_intr w t = false) -> sort_spec (w_sort w) -> wf_inst I -> packing I -> (0 <= i_eps I)%Q -> 0 < i_m I ->
  i_k I <= tolerated I + 1 -> exists s, milp_run w I cf true Song = (Err IndexError, s).
Proof. exact milp_song. Qed.
Print Assumptions C70_milp_song_raises.

(** AdaptivePartitioner with binary variables, any options: whenever it returns, the bounds enclose the optimal value within the gap, and
    are equal to it for the verdict "feasible". *)
Theorem C70_adaptive : forall w I cf, oracles_ok w I -> sort_spec (w_sort w) -> wf_inst I -> packing I -> eps_ok I -> (i_eps I < 1)%Q ->
  exact_answers w -> undisturbed w cf -> options_ok w I cf -> 0 < i_n I ->
  forall fuel vd s v, i_cont I = false -> tight I -> (0 <= c_gap cf)%Q -> optimum I v -> run w I cf fuel = (Ok vd, s) -> bin_result I cf vd s v.
Proof. exact bin_run. Qed.
Print Assumptions C70_adaptive.

(** Without merging it does return. *)
Theorem C70_adaptive_total : forall w I cf, oracles_ok w I -> sort_spec (w_sort w) -> wf_inst I -> packing I -> eps_ok I -> (i_eps I < 1)%Q ->
  exact_answers w -> undisturbed w cf -> options_ok w I cf -> 0 < i_n I ->
  forall fuel, i_cont I = false -> tight I -> (0 <= c_gap cf)%Q -> (exists y, det_feasible I (seq 0 (i_k I)) 0 y /\ (0 < obj I y)%Q) ->
  c_merger cf = false -> i_k I - tolerated I <= fuel ->
  exists vd s v, run w I cf fuel = (Ok vd, s) /\ a_iter s <= i_k I - tolerated I /\ optimum I v /\ bin_result I cf vd s v.
Proof. exact bin_total. Qed.
Print Assumptions C70_adaptive_total.

(** Continuous variables: the same up to the 1e-3 that points feasible within 1e-6 may bring. *)
Theorem C70_adaptive_cont : forall w I cf, oracles_ok w I -> sort_spec (w_sort w) -> wf_inst I -> packing I -> eps_ok I -> (i_eps I < 1)%Q ->
  exact_answers w -> undisturbed w cf -> options_ok w I cf -> 0 < i_n I ->
  forall fuel vd s v, near I -> (0 <= c_gap cf)%Q -> optimum I v -> run w I cf fuel = (Ok vd, s) ->
  cont_result cf vd s v.
Proof. exact cont_run. Qed.
Print Assumptions C70_adaptive_cont.

Theorem C70_adaptive_cont_total : forall w I cf, oracles_ok w I -> sort_spec (w_sort w) -> wf_inst I -> packing I -> eps_ok I -> (i_eps I < 1)%Q ->
  exact_answers w -> undisturbed w cf -> options_ok w I cf -> 0 < i_n I ->
  forall fuel, i_cont I = true -> (0 < qsum (i_c I))%Q -> (forall s i, s < i_k I -> i < i_m I -> (qsum (i_c I) <= 1000 * rhs I s i)%Q) ->
  (0 <= c_gap cf)%Q -> c_merger cf = false -> i_k I - tolerated I <= fuel ->
  exists r s, run w I cf fuel = (r, s) /\ ((exists vd v, r = Ok vd /\ a_iter s <= i_k I - tolerated I /\ optimum I v /\ cont_result cf vd s v) \/
    exists e, r = Err e /\ close_failed w I cf e s).
Proof. exact cont_total. Qed.
Print Assumptions C70_adaptive_cont_total.

(** MilpSolver and AdaptivePartitioner on the same binary instance, whatever their solvers, random choices and options. *)
Theorem C70_agree : forall w1 w2 I cf1 cf2 um meth, argsort_ok (w_argsort w1) -> sort_spec (w_sort w1) -> oracles_ok w2 I -> sort_spec (w_sort w2) ->
  wf_inst I -> packing I -> eps_ok I -> (i_eps I < 1)%Q -> exact_answers w1 -> exact_answers w2 -> undisturbed w1 cf1 -> undisturbed w2 cf2 -> options_ok w2 I cf2 ->
  0 < i_n I -> i_cont I = false -> tight I -> (0 <= c_gap cf2)%Q -> (um = true -> meth <> OtherM /\ (meth = Song -> tolerated I + 1 < i_k I)) ->
  forall bt s1 fuel vd s2, milp_run w1 I cf1 um meth = (Ok bt, s1) -> run w2 I cf2 fuel = (Ok vd, s2) ->
  exists v l u, a_vLB s1 = Fin v /\ a_vLB s2 = Fin l /\ a_vUB s2 = Fin u /\ (l <= v /\ v <= u /\ u <= v * (1 + c_gap cf2))%Q /\
    (vd = Feasible \/ (c_gap cf2 == 0)%Q -> (l == v /\ u == v)%Q).
Proof. exact methods_agree. Qed.
Print Assumptions C70_agree.

(** With answers within tolerances and gaps: whenever both return (the adaptive method not because of the time), both enclose the optimal value,
    hence they differ by their gaps only.  [eps_ok] and [eps_within] are needed: C77. *)
Theorem C70_close : forall w1 w2 I cf1 cf2 tau1 tau2 delta1 delta2 um meth, argsort_ok (w_argsort w1) -> sort_spec (w_sort w1) -> oracles_ok w2 I -> sort_spec (w_sort w2) ->
  wf_inst I -> packing I -> eps_ok I -> solver_ok w1 I tau1 delta1 -> solver_ok w2 I tau2 delta2 -> eps_within I tau1 -> i_cont I = false -> tight I -> (0 <= c_gap cf2)%Q ->
  forall bt s1 fuel vd s2, milp_run w1 I cf1 um meth = (Ok bt, s1) -> run w2 I cf2 fuel = (Ok vd, s2) -> vd = Feasible \/ vd = GapReached ->
  exists opt v u l, optimum I opt /\ a_vLB s1 = Fin v /\ a_vUB s1 = Fin u /\ a_vLB s2 = Fin l /\ (v <= opt /\ opt <= u)%Q /\
    (l <= opt + delta2)%Q /\ (opt <= l * (1 + c_gap cf2))%Q /\ (vd = Feasible -> opt <= l)%Q /\
    (l <= u + delta2 /\ v <= l * (1 + c_gap cf2))%Q.
Proof. exact methods_close. Qed.
Print Assumptions C70_close.
Example C70_close_example : let w := loose_world exMid in solver_ok w exMid tol6 (1 # 100000) /\ eps_within exMid tol6 /\ eps_ok exMid /\ tight exMid /\ wf_inst exMid /\ packing exMid /\
  (let '(r, s) := milp_run w exMid ex_plain false Naive in r = Ok None /\ a_vLB s = Fin 5 /\ a_vUB s = Fin (500000005 # 100000000)) /\
  (let '(r, s) := run w exMid ex_plain 3 in r = Ok Feasible /\ a_vLB s = Fin (500000005 # 100000000)).
Proof. exact close_example. Qed.

(** The hypotheses hold for a binary and a continuous instance; on both, the four calls of MilpSolver and the 24 calls of AdaptivePartitioner
    of the integration tests return the same value. *)
Example C70_example :
  (forall I, exact_answers (mip_world I)) /\ (forall I cf, (0 < c_limit cf)%Q -> undisturbed (mip_world I) cf) /\
  (i_cont exMid = false /\ tight exMid /\ tolerated exMid + 1 < i_k exMid) /\ (i_cont exPair = true /\ near exPair) /\
  (forall x, In x (milp_values exMid ++ adaptive_values exMid) -> x = Some (Fin 5)) /\ length (adaptive_values exMid) = 24 /\
  (forall x, In x (milp_values exPair ++ adaptive_values exPair) -> x = Some (Fin (1794 # 529))) /\ length (adaptive_values exPair) = 24.
Proof. exact agree_example. Qed.
