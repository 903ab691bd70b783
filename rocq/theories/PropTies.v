(** Merging and the relaxations: C80. *)
From Verif Require Import Base Spec Instance OptModels Initial Bounds Refine CostRefine Merge Violations BigM Adaptive AdaptiveSpec NearSpec
  AdaptiveEx AdaptiveEx2 CycleEx TieSpec AdaptiveTies TieEx.

(** ** C80 *)
(** A split of the subsets that x violates, followed by the merge: a point that violates all subsets the split changed does not violate
    fewer subsets of the new partition than of the old one. *)
Theorem C80_merge : forall norm V I mu old R costs x y kind p' ms, refinement_ok (i_k I) (violated I x) mu old R -> 0 < mu ->
  0 < nunsat I tol6 x (rf_part R) -> nunsat I tol6 x (rf_part R) <= length old -> length costs = length (rf_part R) ->
  merge_select norm V (rf_part R) (length (rf_part R)) costs (rf_feasible R) (rf_mu R) (Some y) = Ok (kind, p', ms) ->
  forall q, (exists c, In c (rf_new R) /\ subset_sat I 0 q (nth c (rf_part R) [])) \/ nunsat I 0 q old <= nunsat I 0 q p'.
Proof. exact merge_select_points. Qed.
Print Assumptions C80_merge.

(** Exact solver, no signal, no time limit, binary or continuous.  In every turn, with or without merging, the point kept as x_upper_bound
    solves the relaxation of the current partition, and its value, the new upper bound, is at most the previous one. *)
Theorem C80_relaxation : forall w I cf, oracles_ok w I -> sort_spec (w_sort w) -> wf_inst I -> packing I -> eps_ok I -> (i_eps I < 1)%Q ->
  solver_ok w I 0 0 -> calm w cf -> options_ok w I cf -> exact_if_cont w I -> 0 < i_n I -> near I ->
  forall s r s1, head_reach w I cf s -> bound_phase w I cf s = (Ok r, s1) ->
  exists y u, a_xUB s1 = Some y /\ (forall x, r = inr x -> x = Some y) /\ part_feasible I (a_part s) 0 y /\
    (forall q, part_feasible I (a_part s) 0 q -> (obj I q <= obj I y)%Q) /\ a_vUB s1 = Fin u /\ (u == obj I y)%Q /\ ext_leb (Fin u) (a_vUB s) = true.
Proof. exact relaxation_solved. Qed.
Print Assumptions C80_relaxation.

(** The next turn finds another point: it satisfies a scenario that the previous one violates, and it is not better. *)
Theorem C80_new_point : forall w I cf, oracles_ok w I -> sort_spec (w_sort w) -> wf_inst I -> packing I -> eps_ok I -> (i_eps I < 1)%Q ->
  solver_ok w I 0 0 -> calm w cf -> options_ok w I cf -> exact_if_cont w I -> 0 < i_n I -> near I ->
  forall s s1 s2, head_reach w I cf s -> iteration w I cf s = (Ok Continue, s1) -> iteration w I cf s1 = (Ok Continue, s2) ->
  exists y1 y2, a_xUB s1 = Some y1 /\ a_xUB s2 = Some y2 /\ (obj I y2 <= obj I y1)%Q /\ exists t, t < i_k I /\ violated I y1 t = true /\ violated I y2 t = false.
Proof. exact next_point. Qed.
Print Assumptions C80_new_point.

(** Binary variables.  If the points of equal value that violate too many scenarios violate the same ones, a run with merging ends
    within 2^n turns, or it divides by a lower bound that is zero.  (With ties it may be endless: C60.) *)
Theorem C80_ends : forall w I cf, oracles_ok w I -> sort_spec (w_sort w) -> wf_inst I -> packing I -> eps_ok I -> (i_eps I < 1)%Q ->
  solver_ok w I 0 0 -> calm w cf -> options_ok w I cf -> 0 < i_n I -> tight I -> i_cont I = false -> alike I ->
  forall fuel r s, 2 ^ i_n I <= fuel -> run w I cf fuel = (r, s) ->
  ((r = Ok Feasible \/ r = Ok GapReached) /\ a_iter s <= 2 ^ i_n I) \/ zero_bound r s.
Proof. exact finite_tight. Qed.
Print Assumptions C80_ends.

(** It raises nothing when some point of positive value satisfies every scenario. *)
Theorem C80_never_raises : forall w I cf, oracles_ok w I -> sort_spec (w_sort w) -> wf_inst I -> packing I -> eps_ok I -> (i_eps I < 1)%Q ->
  solver_ok w I 0 0 -> calm w cf -> options_ok w I cf -> 0 < i_n I -> tight I -> i_cont I = false -> alike I ->
  (exists y, det_feasible I (seq 0 (i_k I)) 0 y /\ (0 < obj I y)%Q) ->
  forall fuel r s, 2 ^ i_n I <= fuel -> run w I cf fuel = (r, s) -> (r = Ok Feasible \/ r = Ok GapReached) /\ a_iter s <= 2 ^ i_n I.
Proof. exact finite_never. Qed.
Print Assumptions C80_never_raises.

(** Binary variables, with ties or without: among any number of consecutive turns, fewer than N - floor(eps N) + 2^n - 1 fail to merge or
    lower the upper bound.  So an endless run merges in all turns but finitely many, under the same bound. *)
Theorem C80_stalls : forall w I cf, oracles_ok w I -> sort_spec (w_sort w) -> wf_inst I -> packing I -> eps_ok I -> (i_eps I < 1)%Q ->
  solver_ok w I 0 0 -> calm w cf -> options_ok w I cf -> 0 < i_n I -> tight I -> i_cont I = false ->
  forall s l, head_reach w I cf s -> consecutive w I cf (s :: l) -> progress (s :: l) + tolerated I + 2 <= i_k I + 2 ^ i_n I.
Proof. exact stalls_tight. Qed.
Print Assumptions C80_stalls.

(** The hypotheses hold for exTies, not for exC; the first turn on exTies merges, and the bounds 40, 31, 23 decrease.  On exTies all
    turns make progress; on exC (C60) none. *)
Example C80_example :
  (let w := brute_world exTies in oracles_ok w exTies /\ sort_spec (w_sort w) /\ wf_inst exTies /\ packing exTies /\ eps_ok exTies /\ solver_ok w exTies 0 0) /\
  (i_eps exTies < 1)%Q /\ tight exTies /\ i_cont exTies = false /\ alike exTies /\ ~ alike exC /\
  (det_feasible exTies (seq 0 8) 0 [1; 0; 0; 0]%Q /\ (0 < obj exTies [1; 0; 0; 0])%Q) /\
  (forall sp ini mth merger bm, sp <> SplitOther -> ini <> InitOther -> mth <> OtherM ->
    calm (brute_world exTies) (ex_cfg sp ini mth merger bm) /\ options_ok (brute_world exTies) exTies (ex_cfg sp ini mth merger bm)) /\
  map (fun n => show_turn (head_state (brute_world exTies) exTies (ex_cfg SplitCost InitRandom Belotti true true) n)) [0; 1; 2; 3] =
    [Some ([[0; 3; 6]; [1; 4; 7]; [2; 5]], Fin 23, PInf, false); Some ([[3; 2; 5]; [1; 4; 7]; [0; 6]], Fin 23, Fin 40, true);
     Some ([[3; 2; 5]; [1]; [0; 6]; [4; 7]], Fin 23, Fin 31, false); None] /\
  progress (heads exTies (ex_cfg SplitCost InitRandom Belotti true true) [0; 1; 2; 3]) = 2 /\
  progress (heads exC (ex_cfg SplitCost InitCost Belotti true true) (seq 0 8)) = 0 /\
  (let '(r, s) := run (brute_world exTies) exTies (ex_cfg SplitCost InitRandom Belotti true true) 16 in
    r = Ok Feasible /\ a_iter s = 3 /\ a_vLB s = Fin 23 /\ a_vUB s = Fin 23).
Proof. exact tie_example. Qed.
