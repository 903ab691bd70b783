(** Notions used in the statements about runs of the adaptive partitioner. *)
From Coq Require Import Qabs.
From Verif Require Import Base Spec Instance OptModels Initial Bounds Refine CostRefine Merge Adaptive.

(** An answer of the evaluator for a subset. *)
Definition answered (w : world) (I : inst) (S : list nat) (v : Q) (x : list Q) : Prop :=
  exists t z b, w_solve w t (deter_model I S) = Solved x z v b.
(** Costs and solutions are answers for the subsets of p. *)
Definition aligned (w : world) (I : inst) (p : list (list nat)) (costs : list Q) (sols : list (list Q)) : Prop :=
  length costs = length p /\ length sols = length p /\
  forall c, c < length p -> answered w I (nth c p []) (nth c costs 0%Q) (nth c sols []).
(** Exceptions that come from outside: a signal, or an evaluator model that Gurobi did not solve. *)
Definition external (w : world) (I : inst) (e : exn) : Prop :=
  (e = KeyboardInterrupt /\ ((exists t, w_intr w t = true) \/ (exists t m, w_solve w t m = Interrupted))) \/
  (e = AttributeError /\ exists t S, match w_solve w t (deter_model I S) with Solved _ _ _ _ | Interrupted => False | _ => True end).
(** Oracles: permutations, a sort, norms, and split models answered with feasible points. *)
Definition oracles_ok (w : world) (I : inst) : Prop :=
  perm_oracle (w_perm w) /\ argsort_ok (w_argsort w) /\ (forall r, (0 <= w_norm w r)%Q) /\ acc_sound I (w_acc w) /\
  (forall t s i p, acc_query I s i -> w_acc w t s i = AccSolved p -> (- 1000000 <= ap_alpha p)%Q).
Definition clock_mono (w : world) : Prop := forall t t', t <= t' -> (w_clock w t <= w_clock w t')%Q.

(** States at the head of the main loop. *)
Inductive head_reach (w : world) (I : inst) (cf : cfg) : ast -> Prop :=
| HR_start b s0 s : construct w I cf (ast0 I) = (Ok b, s0) -> prologue w I cf b s0 = (Ok Continue, s) -> head_reach w I cf s
| HR_next s s' : head_reach w I cf s -> iteration w I cf s = (Ok Continue, s') -> head_reach w I cf s'.

(** One turn of the loop that reaches the merge step: s is at the head, s1 after both bounds with the point x,
    s2 after the split. *)
Definition step_reach (w : world) (I : inst) (cf : cfg) (s s1 : ast) (x : option (list Q)) (R : refinement) (nc : list Q) (s2 : ast) : Prop :=
  head_reach w I cf s /\ bound_phase w I cf s = (Ok (inr x), s1) /\ split_step w I cf s1 = (Ok (R, nc), s2).

(** ** Hypotheses on the solver and statements about bounds *)

(** Answers of the solver: feasible within [tau] and bounding; the evaluator returns the optimum or more (its
    ObjVal dominates the exactly feasible points); models solved with MIP gap 1e-8 leave at most [delta]. *)
Record solver_ok (w : world) (I : inst) (tau delta : Q) : Prop := mkSolverOk {
  so_tau : (0 <= tau /\ tau <= tol6)%Q;
  so_delta : (0 <= delta)%Q;
  so_ok : forall t m, outcome_ok tau m (w_solve w t m);
  so_eval : forall S v x, answered w I S v x -> forall y, det_feasible I S 0 y -> (obj I y <= v)%Q;
  so_gap : forall t m x z v b, m_gap m = Some (1 # 100000000)%Q -> w_solve w t m = Solved x z v b -> (b <= v + delta)%Q
}.
(** eps*k is not within 1e-7*k below an integer: the tolerance of the scenario selection changes nothing. *)
Definition eps_ok (I : inst) : Prop :=
  (0 <= i_eps I)%Q /\ Qfloor (i_eps I * Qn (i_k I) + (1 # 10000000) * Qn (i_k I)) = Qfloor (i_eps I * Qn (i_k I)).

(** Nor within tau*k: a violation of the chance constraint by tau does not allow for another scenario. *)
Definition eps_within (I : inst) (tau : Q) : Prop :=
  Qfloor (i_eps I * Qn (i_k I) + tau * Qn (i_k I)) = Qfloor (i_eps I * Qn (i_k I)).

(** The lower bound is attained within [delta] by a point feasible within 1e-6. *)
Definition lower_ok (I : inst) (delta : Q) (vLB : ext) : Prop :=
  vLB = NInf \/ exists v x, vLB = Fin v /\ cc_feasible I tol6 x /\ (v <= obj I x + delta)%Q.
(** No feasible point has an objective above max(vUB, vLB - 1e-3). *)
Definition upper_ok (I : inst) (vUB vLB : ext) : Prop :=
  forall x, cc_feasible I 0 x -> ext_leb (Fin (obj I x)) vUB = true \/ ext_leb (Fin (obj I x + (1 # 1000))%Q) vLB = true.
(** Points feasible within 1e-6 are feasible. *)
Definition tight (I : inst) : Prop := forall x, cc_feasible I tol6 x -> cc_feasible I 0 x.

(** Everything before the assignments that follow the loop (AdaptivePartitioner.py:330-336). *)
Definition explore (w : world) (I : inst) (cf : cfg) (fuel : nat) : res verdict * ast :=
  (let! b := construct w I cf in
   let! v := prologue w I cf b in
   match v with Continue => main_loop w I cf fuel | _ => mret v end)%mon (ast0 I).

(** ** Hypotheses of the termination theorem *)
(** The solver stops with an answer: infeasible, or a point whose relative gap (bound minus value, over the absolute value) is zero or
    below one. *)
Definition finished (o : outcome) : Prop :=
  match o with Solved _ _ v b => (b <= v \/ b - v < Qabs v)%Q | Infeasible => True | _ => False end.
(** Nothing comes from outside: no signal, models with binary variables are answered, the clock does not go back
    and stays below the time limit. *)
Record calm (w : world) (cf : cfg) : Prop := mkCalm {
  cm_intr : forall t, w_intr w t = false;
  cm_solved : forall t m, w_solve w t m <> Interrupted;
  cm_answer : forall t m, m_cont m = false -> finished (w_solve w t m);
  cm_mono : clock_mono w;
  cm_limit : forall t, (w_clock w t - w_clock w 0 < c_limit cf)%Q
}.
(** The options are known ones; random splits do not use the accurate objective and the random refiner has enough
    turns; the split models of the cost refiner are answered. *)
Record options_ok (w : world) (I : inst) (cf : cfg) : Prop := mkOptions {
  op_init : c_init cf <> InitOther;
  op_proj : c_proj cf <> ProjOther;
  op_split : (c_split cf = SplitRandom /\ c_acc cf = false /\ tolerated I + 1 <= c_fuel cf) \/
             (c_split cf = SplitCost /\ c_acc cf = true /\ acc_total I (w_acc w));
  op_bigM : c_bigM cf = true -> c_method cf <> OtherM
}.
(** Division by a lower bound that is zero. *)
Definition zero_bound (r : res verdict) (s : ast) : Prop :=
  r = Err ZeroDivisionError /\ exists l, a_vLB s = Fin l /\ (l == 0)%Q.

(** ** Hypotheses of the statements on the lower-bound problem *)
(** State at the head of the main loop with the solutions of the upper-bound problems of the completed iterations,
    last first. *)
Inductive head_trace (w : world) (I : inst) (cf : cfg) : list (list Q) -> ast -> Prop :=
| HT_start b s0 s : construct w I cf (ast0 I) = (Ok b, s0) -> prologue w I cf b s0 = (Ok Continue, s) -> head_trace w I cf [] s
| HT_next xs s x s1 s' : head_trace w I cf xs s -> bound_phase w I cf s = (Ok (inr (Some x)), s1) ->
    iteration w I cf s = (Ok Continue, s') -> head_trace w I cf (x :: xs) s'.
(** Number of points of xs that satisfy scenario t within 1e-6. *)
Definition times_ok (I : inst) (xs : list (list Q)) (t : nat) : nat := count (fun x => satb I tol6 x t) xs.
(** Row i of scenario s is violated by at least 1e-3, by v when divided by the norm of the row (if it is not 0). *)
Definition scaled_viol (norm : list Q -> Q) (I : inst) (x : list Q) (s i : nat) (v : Q) : Prop :=
  i < i_m I /\ (1 # 1000 <= dot (row I s i) x - rhs I s i)%Q /\
  ((norm (row I s i) == 0 /\ v == dot (row I s i) x - rhs I s i) \/
   (~ norm (row I s i) == 0 /\ v * norm (row I s i) == dot (row I s i) x - rhs I s i))%Q.
(** [sel] is a least set of scenarios of probability 1 - eps - 1e-7, in the order of the projection method: the
    scenarios most often satisfied by the points xs, or the least violated by x. *)
Definition projection_ok (norm : list Q -> Q) (I : inst) (proj : projection) (xs : list (list Q)) (x : list Q) (sel : list nat) : Prop :=
  NoDup sel /\ Forall (fun t => t < i_k I) sel /\
  ((1 - i_eps I - (1 # 10000000)) * Qn (i_k I) <= Qn (length sel))%Q /\
  (forall n, 0 < n < length sel -> (Qn n < (1 - i_eps I - (1 # 10000000)) * Qn (i_k I))%Q) /\
  forall a b, In a sel -> b < i_k I -> ~ In b sel ->
    match proj with
    | ProjCounter => times_ok I xs b <= times_ok I xs a
    | ProjRescaled => forall i v, scaled_viol norm I x a i v -> exists j v', scaled_viol norm I x b j v' /\ (v <= v')%Q
    | ProjOther => False
    end.

(** ** Runs that never end *)
(** V is out of reach of the feasible points by more than the gap tolerance; every scenario alone, and some subset of every
    partition into floor(eps N) + 1 subsets, admits a point of value V; a scenario violated by a point of value V or more admits
    only points of value V or less.  The point of positive value rules out the division by zero. *)
Record trap (I : inst) (V gap : Q) : Prop := mkTrap {
  tr_below : forall y, cc_feasible I 0 y -> (obj I y * (1 + gap) < V)%Q;
  tr_single : forall s, s < i_k I -> exists y, det_feasible I [s] 0 y /\ (V <= obj I y)%Q;
  tr_part : forall p, valid_partition (i_k I) p -> length p = tolerated I + 1 ->
    exists S y, In S p /\ det_feasible I S 0 y /\ (V <= obj I y)%Q;
  tr_near : forall x s, in_dom I x -> (V <= obj I x)%Q -> s < i_k I -> violated I x s = true ->
    forall y, det_feasible I [s] 0 y -> (obj I y <= V)%Q;
  tr_pos : exists y, det_feasible I (seq 0 (i_k I)) 0 y /\ (0 < obj I y)%Q
}.

(** ** The relaxation of an iteration *)
(** Every subset selected by z is satisfied by y (within 1e-6). *)
Definition selects (I : inst) (y z : list Q) (p : list (list nat)) : Prop :=
  length z = length p /\ forall c, c < length p -> (nth c z 0 == 1)%Q -> subset_sat I tol6 y (nth c p []).
(** The model m, with time limit [limit], is the relaxation of the partitioned instance in state s: rows with big M's or indicators,
    the chance constraint, indicators of the subsets cheaper than vLB - 1e-3 fixed to zero, previous indicators zUB as a start
    without the deleted subsets. *)
Definition relaxation_of (cf : cfg) (s : ast) (zUB : list Q) (limit : Q) (m : model) : Prop :=
  (exists rows pruned,
     (if c_bigM cf then all_big_m_rows (a_view s) (a_bigM s) = Ok rows else rows = all_indicator_rows (a_view s)) /\
     m_cstrs m = rows ++ CChance (v_p (a_view s)) (1 - v_eps (a_view s))%Q :: map CFix0 pruned /\
     forall c, In c pruned <-> c < length (a_costs s) /\
       match a_vLB s with Fin v => (nth c (a_costs s) 0 + (1 # 1000) <= v)%Q | NInf => False | PInf => True end) /\
  (forall j v, In (j, v) (m_start m) <-> v = 1%Q /\ exists c, c < length zUB /\ (nth c zUB 0 == 1)%Q /\
     ~ In c (ms_deleted (a_ms s)) /\ j = length (filter (fun d => negb (existsb (Nat.eqb d) (ms_deleted (a_ms s)))) (seq 0 c))) /\
  m_n m = v_n (a_view s) /\ m_cont m = v_cont (a_view s) /\ m_nz m = v_k (a_view s) /\ m_obj m = v_c (a_view s) /\
  m_const m = 0%Q /\ m_gap m = Some (1 # 100000000)%Q /\ m_time m = Some limit /\ m_lazy m = c_lazy cf.
