(** Model of src/solver/MilpSolver.py with the parts of src/solver/Solver.py it uses.  The state of
    Adaptive.v is reused: vUB, vLB, xLB, big_m_finder.bigM and the start time are fields of [ast];
    zLB (MilpSolver.py:64) is never read and is not modelled. *)
From Verif Require Import Base Spec Instance OptModels Bounds Knapsack Violations BigM Adaptive.

Section Milp.
  Variable w : world.
  Variable I : inst.
  Variable cf : cfg.

  (** ChanceKnapInstance.py:40: the instance itself, with equal probabilities. *)
  Definition milp_view : view := view_inst I (uniform (i_k I)).

  (** MilpSolver.py:13-16, Solver.py:16-23, BigMFinder.py:20-25. *)
  Definition milp_construct : M unit :=
    let! now := clock w in
    put w (set_start now) ;;;
    put w (set_bigM (naive_all milp_view (i_k I))).

  (** MilpSolver.py:19-37.  A quantile bound equal to None makes the knapsack model (or the greedy
      computation) fail; the class of this exception is not modelled beyond TypeError. *)
  Definition milp_choose_big_m (method : bigm_method) : M unit :=
    match method with
    | Belotti =>
        let! costs := all_scenario_costs w I in
        let! b := lift (ahmed_bound (w_argsort w) costs (uniform (i_k I)) (i_eps I)) in
        match b with
        | None => mraise TypeError
        | Some (_, v) =>
            let! Ms := (fun s => let '(r, t) := belotti_all (w_argsort w) (w_solve w) milp_view (Fin v) (i_k I) (a_t s) in
                                 (r, set_t t s)) in
            put w (set_bigM Ms)
        end
    | Song =>
        let! Ms := lift (do tab <- song_all I (compute_all_violations (w_sort w) I) None (i_eps I) (i_k I) ;;
                         to_floats tab) in
        put w (set_bigM Ms)
    | Naive => mret tt
    | OtherM => mraise ValueError
    end.

  (** MilpSolver.py:19-39: the result is big_m_time. *)
  Definition milp_compute_big_m (method : bigm_method) : M Q :=
    milp_choose_big_m method ;;;
    let! t := available w cf in
    mret (c_limit cf - t)%Q.

  (** MilpSolver.py:48-66.  The result is the attribute big_m_time: None when it is not set.
      [_available_time] is called twice (57, 58); the elapsed time is used by the bound log only. *)
  Definition milp_solve (use_big_m : bool) (method : bigm_method) : M (option Q) :=
    let! bt := (if use_big_m then (let! t := milp_compute_big_m method in mret (Some t)) else mret None) in
    let! time := available w cf in
    let! _ := available w cf in
    let! s := mget in
    let! (x, _, v_obj, v_bnd) := solve_cclp w milp_view use_big_m false (a_bigM s) [] [] time (c_gap cf) in
    put w (set_xLB (Some x)) ;;;
    put w (set_vLB (Fin v_obj) false) ;;;
    put w (set_vUB (Fin v_bnd) false) ;;;
    mret bt.

  Definition milp_run (use_big_m : bool) (method : bigm_method) : res (option Q) * ast :=
    (milp_construct ;;; milp_solve use_big_m method) (ast0 I).
End Milp.
