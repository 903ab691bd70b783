(** Model of src/solver/AdaptivePartitioner.py with the parts of src/solver/Solver.py,
    src/Evaluator.py, src/Informer.py it uses.  State and exception monad; every source of
    nondeterminism is a field of [world], indexed by a call counter kept in the state.
    A [tick] is a point where a signal may be delivered (KeyboardInterrupt): there is one after
    every assignment to an attribute.  Attributes that are assigned and read inside one iteration
    only (refiner.mu, refiner.feasible_subsets, refiner.new_subsets, ...) are passed as values.
    Simplification: in-place changes of a list inside refiner, merger and BigMFinder become visible when the
    method returns. *)
From Verif Require Import Base Spec Instance OptModels Initial Bounds Refine CostRefine Merge Knapsack
  Violations BigM.

(** Sources of nondeterminism: Gurobi, Gurobi on split models, random, np.argsort, np.linalg.norm, std::sort,
    time.time, delivery of SIGINT. *)
Record world : Type := mkWorld {
  w_solve : nat -> model -> outcome;
  w_acc : nat -> list nat -> list nat -> acc_outcome;
  w_perm : nat -> nat -> list nat;
  w_argsort : list Q -> list nat;
  w_norm : list Q -> Q;
  w_sort : (nat -> nat -> bool) -> list nat -> list nat;
  w_clock : nat -> Q;
  w_intr : nat -> bool
}.

Inductive split_method := SplitRandom | SplitCost | SplitOther.
Inductive bigm_method := Belotti | Song | Naive | OtherM.

(** Arguments of the constructor (AdaptivePartitioner.py:23-29) and of solve (273-274);
    [c_fuel] bounds the turns of the while loop of the random refiner. *)
Record cfg : Type := mkCfg {
  c_split : split_method;
  c_init : init_type;
  c_proj : projection;
  c_acc : bool;
  c_limit : Q;
  c_gap : Q;
  c_bigM : bool;
  c_method : bigm_method;
  c_merger : bool;
  c_lazy : bool;
  c_fuel : nat
}.

(** A gap: None is NaN. *)
Definition gapv : Type := option ext.
(** A row of iteration_info (Informer.py:51-57) before formatting:
    iteration, time, -vLB, -vUB, gap, nb_subsets. *)
Record logrow : Type := mkLog {
  l_iter : nat; l_time : Q; l_nLB : ext; l_nUB : ext; l_gap : gapv; l_nb : nat
}.

(** Attributes of the adaptive partitioner and of its components. *)
Record ast : Type := mkA {
  a_vUB : ext          (* best upper bound; numpy scalar or python float? *);
  a_npU : bool;
  a_vLB : ext          (* best lower bound *);
  a_npL : bool;
  a_xUB : option (list Q)          (* None before the first store *);
  a_xLB : option (list Q);
  a_zUB : option (list Q);
  a_part : list (list nat)          (* partition *);
  a_nb : nat          (* nb_subsets *);
  a_view : view          (* chance_instance_part *);
  a_costs : list Q          (* subset_costs *);
  a_sols : list (list Q)          (* subset_sols *);
  a_merged : bool          (* did_merge *);
  a_ms : mstate          (* merger.target_subsets, deleted_subsets *);
  a_lb : lbst          (* lowerbounder *);
  a_ref : cstate          (* memory of the cost refiner *);
  a_fe : option feas          (* infeasibility data of chance_instance *);
  a_bigM : list (list Q)          (* bigMFinder.bigM *);
  a_iter : nat          (* iteration *);
  a_log : list logrow          (* informer.iteration_info *);
  a_start : Q          (* TimeManager.start_time *);
  a_perm : nat          (* calls of random so far *);
  a_t : nat          (* other oracle calls so far *)
}.

(** Assignments. *)
Definition set_vUB (v : ext) (np : bool) (s : ast) : ast :=
  mkA (v) (np) (a_vLB s) (a_npL s) (a_xUB s) (a_xLB s) (a_zUB s) (a_part s) (a_nb s) (a_view s) (a_costs s) (a_sols s) (a_merged s) (a_ms s) (a_lb s) (a_ref s) (a_fe s) (a_bigM s) (a_iter s) (a_log s) (a_start s) (a_perm s) (a_t s).
Definition set_vLB (v : ext) (np : bool) (s : ast) : ast :=
  mkA (a_vUB s) (a_npU s) (v) (np) (a_xUB s) (a_xLB s) (a_zUB s) (a_part s) (a_nb s) (a_view s) (a_costs s) (a_sols s) (a_merged s) (a_ms s) (a_lb s) (a_ref s) (a_fe s) (a_bigM s) (a_iter s) (a_log s) (a_start s) (a_perm s) (a_t s).
Definition set_xUB (v : option (list Q)) (s : ast) : ast :=
  mkA (a_vUB s) (a_npU s) (a_vLB s) (a_npL s) (v) (a_xLB s) (a_zUB s) (a_part s) (a_nb s) (a_view s) (a_costs s) (a_sols s) (a_merged s) (a_ms s) (a_lb s) (a_ref s) (a_fe s) (a_bigM s) (a_iter s) (a_log s) (a_start s) (a_perm s) (a_t s).
Definition set_xLB (v : option (list Q)) (s : ast) : ast :=
  mkA (a_vUB s) (a_npU s) (a_vLB s) (a_npL s) (a_xUB s) (v) (a_zUB s) (a_part s) (a_nb s) (a_view s) (a_costs s) (a_sols s) (a_merged s) (a_ms s) (a_lb s) (a_ref s) (a_fe s) (a_bigM s) (a_iter s) (a_log s) (a_start s) (a_perm s) (a_t s).
Definition set_zUB (v : option (list Q)) (s : ast) : ast :=
  mkA (a_vUB s) (a_npU s) (a_vLB s) (a_npL s) (a_xUB s) (a_xLB s) (v) (a_part s) (a_nb s) (a_view s) (a_costs s) (a_sols s) (a_merged s) (a_ms s) (a_lb s) (a_ref s) (a_fe s) (a_bigM s) (a_iter s) (a_log s) (a_start s) (a_perm s) (a_t s).
Definition set_part (v : list (list nat)) (s : ast) : ast :=
  mkA (a_vUB s) (a_npU s) (a_vLB s) (a_npL s) (a_xUB s) (a_xLB s) (a_zUB s) (v) (a_nb s) (a_view s) (a_costs s) (a_sols s) (a_merged s) (a_ms s) (a_lb s) (a_ref s) (a_fe s) (a_bigM s) (a_iter s) (a_log s) (a_start s) (a_perm s) (a_t s).
Definition set_nb (v : nat) (s : ast) : ast :=
  mkA (a_vUB s) (a_npU s) (a_vLB s) (a_npL s) (a_xUB s) (a_xLB s) (a_zUB s) (a_part s) (v) (a_view s) (a_costs s) (a_sols s) (a_merged s) (a_ms s) (a_lb s) (a_ref s) (a_fe s) (a_bigM s) (a_iter s) (a_log s) (a_start s) (a_perm s) (a_t s).
Definition set_view (v : view) (s : ast) : ast :=
  mkA (a_vUB s) (a_npU s) (a_vLB s) (a_npL s) (a_xUB s) (a_xLB s) (a_zUB s) (a_part s) (a_nb s) (v) (a_costs s) (a_sols s) (a_merged s) (a_ms s) (a_lb s) (a_ref s) (a_fe s) (a_bigM s) (a_iter s) (a_log s) (a_start s) (a_perm s) (a_t s).
Definition set_costs (v : list Q) (s : ast) : ast :=
  mkA (a_vUB s) (a_npU s) (a_vLB s) (a_npL s) (a_xUB s) (a_xLB s) (a_zUB s) (a_part s) (a_nb s) (a_view s) (v) (a_sols s) (a_merged s) (a_ms s) (a_lb s) (a_ref s) (a_fe s) (a_bigM s) (a_iter s) (a_log s) (a_start s) (a_perm s) (a_t s).
Definition set_sols (v : list (list Q)) (s : ast) : ast :=
  mkA (a_vUB s) (a_npU s) (a_vLB s) (a_npL s) (a_xUB s) (a_xLB s) (a_zUB s) (a_part s) (a_nb s) (a_view s) (a_costs s) (v) (a_merged s) (a_ms s) (a_lb s) (a_ref s) (a_fe s) (a_bigM s) (a_iter s) (a_log s) (a_start s) (a_perm s) (a_t s).
Definition set_merged (v : bool) (s : ast) : ast :=
  mkA (a_vUB s) (a_npU s) (a_vLB s) (a_npL s) (a_xUB s) (a_xLB s) (a_zUB s) (a_part s) (a_nb s) (a_view s) (a_costs s) (a_sols s) (v) (a_ms s) (a_lb s) (a_ref s) (a_fe s) (a_bigM s) (a_iter s) (a_log s) (a_start s) (a_perm s) (a_t s).
Definition set_ms (v : mstate) (s : ast) : ast :=
  mkA (a_vUB s) (a_npU s) (a_vLB s) (a_npL s) (a_xUB s) (a_xLB s) (a_zUB s) (a_part s) (a_nb s) (a_view s) (a_costs s) (a_sols s) (a_merged s) (v) (a_lb s) (a_ref s) (a_fe s) (a_bigM s) (a_iter s) (a_log s) (a_start s) (a_perm s) (a_t s).
Definition set_lb (v : lbst) (s : ast) : ast :=
  mkA (a_vUB s) (a_npU s) (a_vLB s) (a_npL s) (a_xUB s) (a_xLB s) (a_zUB s) (a_part s) (a_nb s) (a_view s) (a_costs s) (a_sols s) (a_merged s) (a_ms s) (v) (a_ref s) (a_fe s) (a_bigM s) (a_iter s) (a_log s) (a_start s) (a_perm s) (a_t s).
Definition set_ref (v : cstate) (s : ast) : ast :=
  mkA (a_vUB s) (a_npU s) (a_vLB s) (a_npL s) (a_xUB s) (a_xLB s) (a_zUB s) (a_part s) (a_nb s) (a_view s) (a_costs s) (a_sols s) (a_merged s) (a_ms s) (a_lb s) (v) (a_fe s) (a_bigM s) (a_iter s) (a_log s) (a_start s) (a_perm s) (a_t s).
Definition set_fe (v : option feas) (s : ast) : ast :=
  mkA (a_vUB s) (a_npU s) (a_vLB s) (a_npL s) (a_xUB s) (a_xLB s) (a_zUB s) (a_part s) (a_nb s) (a_view s) (a_costs s) (a_sols s) (a_merged s) (a_ms s) (a_lb s) (a_ref s) (v) (a_bigM s) (a_iter s) (a_log s) (a_start s) (a_perm s) (a_t s).
Definition set_bigM (v : list (list Q)) (s : ast) : ast :=
  mkA (a_vUB s) (a_npU s) (a_vLB s) (a_npL s) (a_xUB s) (a_xLB s) (a_zUB s) (a_part s) (a_nb s) (a_view s) (a_costs s) (a_sols s) (a_merged s) (a_ms s) (a_lb s) (a_ref s) (a_fe s) (v) (a_iter s) (a_log s) (a_start s) (a_perm s) (a_t s).
Definition set_iter (v : nat) (s : ast) : ast :=
  mkA (a_vUB s) (a_npU s) (a_vLB s) (a_npL s) (a_xUB s) (a_xLB s) (a_zUB s) (a_part s) (a_nb s) (a_view s) (a_costs s) (a_sols s) (a_merged s) (a_ms s) (a_lb s) (a_ref s) (a_fe s) (a_bigM s) (v) (a_log s) (a_start s) (a_perm s) (a_t s).
Definition set_log (v : list logrow) (s : ast) : ast :=
  mkA (a_vUB s) (a_npU s) (a_vLB s) (a_npL s) (a_xUB s) (a_xLB s) (a_zUB s) (a_part s) (a_nb s) (a_view s) (a_costs s) (a_sols s) (a_merged s) (a_ms s) (a_lb s) (a_ref s) (a_fe s) (a_bigM s) (a_iter s) (v) (a_start s) (a_perm s) (a_t s).
Definition set_start (v : Q) (s : ast) : ast :=
  mkA (a_vUB s) (a_npU s) (a_vLB s) (a_npL s) (a_xUB s) (a_xLB s) (a_zUB s) (a_part s) (a_nb s) (a_view s) (a_costs s) (a_sols s) (a_merged s) (a_ms s) (a_lb s) (a_ref s) (a_fe s) (a_bigM s) (a_iter s) (a_log s) (v) (a_perm s) (a_t s).
Definition set_perm (v : nat) (s : ast) : ast :=
  mkA (a_vUB s) (a_npU s) (a_vLB s) (a_npL s) (a_xUB s) (a_xLB s) (a_zUB s) (a_part s) (a_nb s) (a_view s) (a_costs s) (a_sols s) (a_merged s) (a_ms s) (a_lb s) (a_ref s) (a_fe s) (a_bigM s) (a_iter s) (a_log s) (a_start s) (v) (a_t s).
Definition set_t (v : nat) (s : ast) : ast :=
  mkA (a_vUB s) (a_npU s) (a_vLB s) (a_npL s) (a_xUB s) (a_xLB s) (a_zUB s) (a_part s) (a_nb s) (a_view s) (a_costs s) (a_sols s) (a_merged s) (a_ms s) (a_lb s) (a_ref s) (a_fe s) (a_bigM s) (a_iter s) (a_log s) (a_start s) (a_perm s) (v).

(** ** Monad *)
Definition M (A : Type) : Type := ast -> res A * ast.
Definition mret {A} (a : A) : M A := fun s => (Ok a, s).
Definition mbind {A B} (m : M A) (f : A -> M B) : M B :=
  fun s => match m s with (Ok a, s') => f a s' | (Err e, s') => (Err e, s') end.
Definition lift {A} (r : res A) : M A := fun s => (r, s).
Definition mget : M ast := fun s => (Ok s, s).
Definition mraise {A} (e : exn) : M A := fun s => (Err e, s).

Declare Scope mon_scope.
Delimit Scope mon_scope with mon.
Notation "'let!' x := m 'in' k" := (mbind m (fun x => k))
  (at level 200, x pattern, m at level 100, k at level 200, right associativity) : mon_scope.
Notation "m ;;; k" := (mbind m (fun _ => k)) (at level 199, right associativity) : mon_scope.
Open Scope mon_scope.

(** [v op None], [None.dot] : TypeError. *)
Definition need {A} (o : option A) : res A := match o with Some a => Ok a | None => Err TypeError end.

Definition ext_opp (a : ext) : ext := match a with NInf => PInf | Fin q => Fin (- q)%Q | PInf => NInf end.
Definition gap_leb (g : gapv) (q : Q) : bool :=
  match g with Some a => ext_leb a (Fin q) | None => false end.

(** [max(list)] *)
Definition list_max (l : list Q) : res Q :=
  match l with [] => Err ValueError | a :: l' => Ok (fold_left Qmax l' a) end.

(** Big M's as floats.  An infinite coefficient is refused by Gurobi. *)
Definition to_floats (l : list (list ext)) : res (list (list Q)) :=
  rmap (rmap (fun e => match e with Fin q => Ok q | _ => Err GurobiError end)) l.

(** Solver.py:26-36.  Division of python floats by zero raises, division of numpy scalars gives inf or nan.
    Infinite bounds of the other sign are not reachable and give nan here. *)
Definition compute_gap (vUB : ext) (npU : bool) (vLB : ext) (npL : bool) : res gapv :=
  match vLB, vUB with
  | NInf, _ => Ok (Some PInf)
  | _, PInf => Ok (Some PInf)
  | Fin l, Fin u =>
      if Qeq_bool l 0 then
        if npU || npL then
          Ok (if Qeq_bool u 0 then None else Some (if Qlt_bool 0 u then PInf else NInf))
        else Err ZeroDivisionError
      else Ok (Some (Fin ((u - l) / l)%Q))
  | _, _ => Ok None
  end.

(** AdaptivePartitioner.py:86-87 *)
Definition min_size (I : inst) : nat := Z.to_nat (Qfloor (i_eps I * Qn (i_k I)) + 1).

(** AdaptivePartitioner.py:180-188, 226-239: choice of the subsets and merge.
    [cands] = range(nb_subsets). *)
Definition merge_candidates (nb : nat) (costs : list Q) (feasible : list nat) : res (list nat) :=
  match filter (fun c => negb (memb c feasible)) (sort_subset_costs (seq 0 nb) costs) with
  | [] => Err UnboundLocalError
  | c :: _ => Ok (feasible ++ [c])
  end.
Inductive merge_kind := MergeAll | MergeMu.
Definition merge_select (norm : list Q -> Q) (V : view) (p : list (list nat)) (nb : nat) (costs : list Q)
    (feasible : list nat) (mu : nat) (x : option (list Q)) : res (merge_kind * list (list nat) * mstate) :=
  if length feasible =? mu then
    do cands <- merge_candidates nb costs feasible ;;
    do (p', ms) <- merge_all p cands ;;
    Ok (MergeAll, p', ms)
  else if mu + 1 <=? length feasible then
    do x <- need x ;;
    do (p', ms) <- merge_feasible norm V p x feasible mu ;;
    Ok (MergeMu, p', ms)
  else Err ValueError.

Section Run.
  Variable w : world.
  Variable I : inst.
  Variable cf : cfg.

  (** Delivery of a signal; every oracle call advances the counter. *)
  Definition bump (s : ast) : ast := set_t (S (a_t s)) s.
  Definition tick : M unit :=
    fun s => (if w_intr w (a_t s) then Err KeyboardInterrupt else Ok tt, bump s).
  Definition put (f : ast -> ast) : M unit := (fun s => (Ok tt, f s)) ;;; tick.
  (** OptiModel.py:183-205 *)
  Definition call (m : model) : M outcome :=
    tick ;;; (fun s => (optimize (w_solve w (a_t s) m), bump s)).
  Definition clock : M Q := fun s => (Ok (w_clock w (a_t s)), bump s).
  (** Solver.py:38-40, TimeManager.py:23-34 *)
  Definition available : M Q :=
    let! now := clock in let! s := mget in mret (Qmax (c_limit cf - (now - a_start s)) 0).

  (** Evaluator.py:12-13, Evaluator.py:22-38 *)
  Definition subset_cost (S : list nat) : M (Q * list Q) :=
    let! o := call (deter_model I S) in
    let! (x, _, v, _) := lift (get_solution o) in
    mret (v, x).

  Fixpoint mmap {A B} (f : A -> M B) (l : list A) : M (list B) :=
    match l with
    | [] => mret []
    | a :: l' => let! b := f a in let! bs := mmap f l' in mret (b :: bs)
    end.
  (** Evaluator.py:40-60 *)
  Definition all_scenario_costs : M (list Q) :=
    let! r := mmap (fun s => subset_cost [s]) (seq 0 (i_k I)) in mret (map fst r).
  (** Evaluator.py:62-80 *)
  Definition partition_cost (p : list (list nat)) : M (list Q * list (list Q)) :=
    let! r := mmap subset_cost p in mret (map fst r, map snd r).

  Definition gap_now : M gapv :=
    let! s := mget in lift (compute_gap (a_vUB s) (a_npU s) (a_vLB s) (a_npL s)).
  (** Informer.py:10-11, Informer.py:44-57 *)
  Definition store_info : M unit :=
    let! g := gap_now in
    let! now := clock in
    put (fun s => set_log (a_log s ++ [mkLog (a_iter s) (now - a_start s)%Q (ext_opp (a_vLB s)) (ext_opp (a_vUB s))
                                         g (a_nb s)]) s).

  (** AdaptivePartitioner.py:100-107 *)
  Definition improve_vlb (cands : list (list Q)) : M unit :=
    let! s := mget in
    match incumbent_bound (w_norm w) (w_argsort w) I cands (a_vUB s) (a_vLB s) with
    | None => mret tt
    | Some (x, v) => put (set_xLB (Some x)) ;;; put (set_vLB (Fin v) true)
    end.

  (** AdaptivePartitioner.py:45-58 *)
  Definition init_refiner : res unit :=
    match c_split cf with
    | SplitRandom => Ok tt
    | SplitCost => rassert (c_acc cf)
    | SplitOther => Err ValueError
    end.

  (** AdaptivePartitioner.py:75-98; Initializer.py:59-76.  The result tells whether vUB is a number: the quantile
      bound may be None. *)
  Definition setup_initial_partition : M bool :=
    put (set_nb (min_size I)) ;;;
    lift (rassert (min_size I <=? i_k I)) ;;;
    let! costs := match c_init cf with InitCost => all_scenario_costs | _ => mret [] end in
    let! s := mget in
    let! p := lift (create_first_partition (w_argsort w) (w_perm w (a_perm s) (i_k I)) costs (i_k I) (min_size I) (c_init cf)) in
    put (set_perm (S (a_perm s))) ;;;
    put (set_part p) ;;;
    let! V := lift (load_partition I (uniform (i_k I)) (min_size I) p) in
    put (set_view V) ;;;
    match c_init cf with
    | InitCost =>
        let! b := lift (ahmed_bound (w_argsort w) costs (uniform (i_k I)) (i_eps I)) in
        match b with
        | Some (_, v) => put (set_vUB (Fin v) true) ;;; mret true
        | None => mret false
        end
    | _ => mret true
    end.

  (** State before the constructor. *)
  Definition ast0 : ast :=
    mkA PInf false NInf false None None None [] 0 (mkView 0 true [] 0 [] [] [] 0) [] [] false (mkMs [] [])
        (lb_init I) cstate0 None [] 0 [] 0 0 0.

  (** AdaptivePartitioner.py:23-42, 60-73; Solver.py:16-23; BigMFinder.py:20-25 (main.py:91,106). *)
  Definition construct : M bool :=
    let! now := clock in
    put (set_start now) ;;;
    lift init_refiner ;;;
    let! b := setup_initial_partition in
    let! s := mget in
    put (set_bigM (naive_all (a_view s) (v_k (a_view s)))) ;;;
    mret b.

  (** BigMFinder.py:211-235 (update_big_M) *)
  Definition update_big_M : M unit :=
    let! s := mget in
    put (set_bigM (naive_all (a_view s) (a_nb s))) ;;;
    match c_method cf with
    | Belotti =>
        let! Ms := (fun s => let '(r, t) := belotti_all (w_argsort w) (w_solve w) (a_view s) (a_vUB s) (a_nb s) (a_t s) in
                             (r, set_t t s)) in
        put (set_bigM Ms)
    | Song =>
        let! s := mget in
        let! Ms := lift (do tab <- song_all I (compute_all_violations (w_sort w) I) (Some (a_part s)) (v_eps (a_view s)) (a_nb s) ;;
                         to_floats tab) in
        put (set_bigM Ms)
    | Naive => mret tt
    | OtherM => mraise ValueError
    end.
  (** AdaptivePartitioner.py:109-117 *)
  Definition big_M : M unit :=
    let! s := mget in
    if c_bigM cf && (min_size I <? a_nb s) then update_big_M else mret tt.

  (** Solver.py:71-123.  Gurobi refuses a negative time limit. *)
  Definition solve_cclp (V : view) (use_big_M lazy : bool) (bigM : list (list Q)) (start : list (nat * Q))
      (prune : list nat) (time gap : Q) : M (list Q * list Q * Q * Q) :=
    let! t1 := clock in
    let! _ := lift (cclp_model V use_big_M lazy bigM start prune gap time) in
    let! t2 := clock in
    let limit := grb_time_limit time t1 t2 in
    if Qlt_bool limit 0 then mraise GurobiError
    else
      let! m := lift (cclp_model V use_big_M lazy bigM start prune gap limit) in
      let! o := call m in
      lift (get_solution o).

  (** UpperBounder.py:80-127.  enumerate(None) raises TypeError. *)
  Definition partition_bound : M (list Q * list Q * Q * Q) :=
    let! time := available in
    let! s := mget in
    let! zUB := lift (need (a_zUB s)) in
    let! r := solve_cclp (a_view s) (c_bigM cf) (c_lazy cf) (a_bigM s)
                (get_z_start zUB (ms_deleted (a_ms s))) (prune_indices (a_costs s) (a_vLB s))
                time (1 # 100000000)%Q in
    let '(x, z, vo, vb) := r in
    let! s := mget in
    lift (check_results (i_cont I) (a_merged s) x vo (a_xUB s) (a_vUB s)) ;;;
    mret (x, z, vo, vb).

  (** AdaptivePartitioner.py:119-157 *)
  Definition upper_bound_step : M (option (list Q) * bool) :=
    let! s := mget in
    let! r := (if a_nb s =? min_size I then lift (first_iteration_bound (a_costs s) (a_sols s))
               else partition_bound) in
    let '(x, z, vo, vb) := r in
    let! t := available in
    if Qle_bool t 0 then (let! s := mget in mret (a_xUB s, false))
    else
      let '(ok, f) := check_feasibility (w_norm w) I x in
      put (set_fe (Some f)) ;;;
      put (set_zUB (Some z)) ;;;
      let! s := mget in
      (if ext_leb (Fin vb) (ext_add (a_vUB s) (1 # 100000000)) then
         (if ext_leb (Fin vo) (ext_add (a_vUB s) (1 # 100000000)) then put (set_xUB (Some x)) else mret tt) ;;;
         put (set_vUB (Fin vb) false)
       else mret tt) ;;;
      put (fun s => set_lb (save_feasible (a_lb s) (get_feasible_scenarios f)) s) ;;;
      store_info ;;;
      mret (Some x, ok).

  (** LowerBounder.py:181-191, 121-142.  With xUB = None the violations cannot be computed;
      without selection ([None]) line 123 raises TypeError. *)
  Definition deterministic_bound (x : option (list Q)) : M (option (list Q) * Q) :=
    let! s := mget in
    let! idx := lift (match c_proj cf with
                      | ProjRescaled => do y <- need x ;; index_scenarios (w_norm w) I ProjRescaled (lb_counter (a_lb s)) y
                      | pr => index_scenarios (w_norm w) I pr (lb_counter (a_lb s)) []
                      end) in
    let! sel := lift (do o <- selected_scenarios (w_argsort w) (uniform (i_k I)) (i_eps I) (i_k I) idx ;; need o) in
    let! lb := lift (lb_prepare I (a_lb s) (a_vLB s) sel) in
    put (set_lb lb) ;;;
    let! o := call (lb_model I lb) in
    lift (lb_read o).

  (** AdaptivePartitioner.py:159-176 *)
  Definition lower_bound_step (x : option (list Q)) : M gapv :=
    let! (y, v) := deterministic_bound x in
    let! s := mget in
    (if ext_ltb (a_vLB s) (Fin v) then put (set_vLB (Fin v) false) ;;; put (set_xLB y) else mret tt) ;;;
    let! g := gap_now in
    store_info ;;;
    mret g.

  (** Refiner.refine of the configured refiner.  A random refiner with use_acc_obj has no accurate split. *)
  Definition refine : M refinement :=
    let! s := mget in
    let! f := lift (match a_fe s with Some f => Ok f | None => Err AttributeError end) in
    match c_split cf with
    | SplitRandom =>
        if c_acc cf then
          (* Refiner.py:239-241 may raise first *)
          lift (number_of_splits I (length (snd (find_infeasible_subsets (a_part s) (f_infeasible f))))) ;;;
          mraise AttributeError
        else
          let! (R, t) := lift (refine_random (c_fuel cf) (w_perm w) I f (a_perm s) (a_part s)) in
          put (set_perm t) ;;; mret R
    | SplitCost =>
        let! (R, cs) := lift (refine_cost (w_acc w) (w_argsort w) I f (a_costs s) (a_vUB s) (a_ref s) (a_part s)) in
        put (set_ref cs) ;;; mret R
    | SplitOther => mraise AttributeError
    end.

  (** AdaptivePartitioner.py:254-264 *)
  Fixpoint eval_new (p : list (list nat)) (l : list nat) : M (list (Q * list Q)) :=
    match l with
    | [] => mret []
    | c :: l' =>
        let! sub := lift (geti p c) in
        let! (v, x) := subset_cost sub in
        let! s := mget in
        (if c <? length (a_costs s) then
           put (fun s => set_costs (upd c v (a_costs s)) s) ;;;
           put (fun s => set_sols (upd c x (a_sols s)) s)
         else
           put (fun s => set_costs (a_costs s ++ [v]) s) ;;;
           put (fun s => set_sols (a_sols s ++ [x]) s)) ;;;
        let! r := eval_new p l' in
        mret ((v, x) :: r)
    end.

  (** AdaptivePartitioner.py:241-270 *)
  Definition split_step : M (refinement * list Q) :=
    let! R := refine in
    put (set_nb (length (rf_part R))) ;;;
    put (set_part (rf_part R)) ;;;
    let! V := lift (load_partition I (uniform (i_k I)) (length (rf_part R)) (rf_part R)) in
    put (set_view V) ;;;
    let! r := eval_new (rf_part R) (rf_new R) in
    improve_vlb (map snd r) ;;;
    mret (R, map fst r).

  (** AdaptivePartitioner.py:215-219 *)
  Fixpoint eval_targets (p : list (list nat)) (l : list nat) : M (list (list Q)) :=
    match l with
    | [] => mret []
    | c :: l' =>
        let! sub := lift (geti p c) in
        let! (v, x) := subset_cost sub in
        let! s := mget in
        lift (geti (a_costs s) c) ;;;
        put (fun s => set_costs (upd c v (a_costs s)) s) ;;;
        put (fun s => set_sols (upd c x (a_sols s)) s) ;;;
        let! r := eval_targets p l' in
        mret (x :: r)
    end.

  (** AdaptivePartitioner.py:204-224 *)
  Definition post_merge : M unit :=
    let! s := mget in
    let! V := lift (load_partition I (uniform (i_k I)) (a_nb s) (a_part s)) in
    put (set_view V) ;;;
    let! costs := lift (delete_subsets (a_costs s) (ms_deleted (a_ms s))) in
    let! sols := lift (delete_subsets (a_sols s) (ms_deleted (a_ms s))) in
    put (set_costs costs) ;;;
    put (set_sols sols) ;;;
    let! r := eval_targets (a_part s) (ms_target (a_ms s)) in
    improve_vlb r.

  (** AdaptivePartitioner.py:178-202, 226-239 *)
  Definition merge_step (x : option (list Q)) (R : refinement) (new_costs : list Q) : M unit :=
    put (set_merged false) ;;;
    if c_merger cf then
      let! mx := lift (list_max new_costs) in
      let! s := mget in
      if ext_leb (Fin mx) (a_vUB s) then
        let! (kind, p, ms) := lift (merge_select (w_norm w) (a_view s) (a_part s) (a_nb s) (a_costs s) (rf_feasible R) (rf_mu R) x) in
        put (set_ms ms) ;;;
        put (set_part p) ;;;
        put (set_nb (length p)) ;;;
        post_merge ;;;
        let! s := mget in
        (match kind with
         | MergeAll => lift (rassert (a_nb s =? min_size I))
         | MergeMu => mret tt
         end) ;;;
        put (set_merged true)
      else mret tt
    else mret tt.

  Inductive verdict := Continue | Feasible | GapReached | TimeUp.

  (** AdaptivePartitioner.py:291-316: gap, big M's and both bounds.  Either the loop is left or it goes on with
      the solution of the relaxation. *)
  Definition bound_phase : M (verdict + option (list Q)) :=
    let! _ := gap_now in
    big_M ;;;
    let! (x, ok) := upper_bound_step in
    if ok then mret (inl Feasible)
    else
      let! t := available in
      if Qle_bool t 0 then mret (inl TimeUp)
      else
        let! g := lower_bound_step x in
        if gap_leb g (c_gap cf) then mret (inl GapReached)
        else
          let! t := available in
          if Qle_bool t 0 then mret (inl TimeUp) else mret (inr x).

  (** AdaptivePartitioner.py:321-328, and the condition of the loop (290). *)
  Definition next_iteration : M verdict :=
    let! t := available in
    if Qle_bool t 0 then mret TimeUp
    else
      put (fun s => set_iter (S (a_iter s)) s) ;;;
      let! t := available in
      if Qle_bool t 0 then mret TimeUp else mret Continue.

  (** AdaptivePartitioner.py:290-328: one turn of the main loop. *)
  Definition iteration : M verdict :=
    let! r := bound_phase in
    match r with
    | inl v => mret v
    | inr x =>
        let! (R, nc) := split_step in
        merge_step x R nc ;;;
        next_iteration
    end.

  Fixpoint main_loop (fuel : nat) : M verdict :=
    match fuel with
    | 0 => mraise NonTermination
    | S n => let! v := iteration in
             match v with Continue => main_loop n | _ => mret v end
    end.

  (** AdaptivePartitioner.py:279-290: before the loop.  [numeric] is false when vUB is None. *)
  Definition prologue (numeric : bool) : M verdict :=
    let! s := mget in
    let! (costs, sols) := partition_cost (a_part s) in
    put (set_costs costs) ;;;
    put (set_sols sols) ;;;
    lift (if numeric then Ok tt else Err TypeError) ;;;
    improve_vlb sols ;;;
    put (set_iter 1) ;;;
    let! t := available in
    mret (if Qle_bool t 0 then TimeUp else Continue).

  (** AdaptivePartitioner.py:330-336 *)
  Definition epilogue (v : verdict) : M verdict :=
    match v with
    | Feasible =>
        put (fun s => set_vLB (a_vUB s) (a_npU s) s) ;;;
        put (fun s => set_xLB (a_xUB s) s) ;;;
        mret v
    | _ => mret v
    end.

  (** AdaptivePartitioner.py:273-336 *)
  Definition solve (fuel : nat) (numeric : bool) : M verdict :=
    let! v := prologue numeric in
    let! v := (match v with Continue => main_loop fuel | _ => mret v end) in
    epilogue v.

  (** Construction and solution (main.py:84-112). *)
  Definition run (fuel : nat) : res verdict * ast :=
    (let! b := construct in solve fuel b) ast0.
End Run.
