(** Model of src/refiner/CostRefiner.py.  [acc t scen inf] is the answer of Gurobi to the
    t-th split model (AccObjModel), for the given scenarios and infeasible scenarios. *)
From Verif Require Import Base Spec Instance OptModels Refine.

(** Python dictionaries: insertion order is kept, an update keeps the position. *)
Fixpoint dget {B} (k : nat) (d : list (nat * B)) : res B :=
  match d with
  | [] => Err KeyError
  | (k', v) :: d' => if Nat.eqb k k' then Ok v else dget k d'
  end.
Fixpoint dset {B} (k : nat) (v : B) (d : list (nat * B)) : list (nat * B) :=
  match d with
  | [] => [(k, v)]
  | (k', v') :: d' => if Nat.eqb k k' then (k, v) :: d' else (k', v') :: dset k v d'
  end.
Definition dpop {B} (k : nat) (d : list (nat * B)) : list (nat * B) :=
  filter (fun kv => negb (Nat.eqb k (fst kv))) d.

(** Memory of solved split models (CostRefiner.py:13-15): the key is a pair of frozensets,
    the value the cost and the two lists. *)
Definition mem : Type := list ((list nat * list nat) * (Q * list nat * list nat)).
Fixpoint mem_get (m : mem) (scen inf : list nat) : option (Q * list nat * list nat) :=
  match m with
  | [] => None
  | ((s, i), v) :: m' => if set_eqb s scen && set_eqb i inf then Some v else mem_get m' scen inf
  end.

(** [post_split_costs], [left_subsets], [right_subsets], the memory, and the number of
    split models solved so far.  [self.count] (only printed) is not modelled. *)
Record cstate : Type := mkC {
  c_cost : list (nat * Q);
  c_left : list (nat * list nat);
  c_right : list (nat * list nat);
  c_mem : mem;
  c_calls : nat
}.

Section Cost.
  Variable acc : nat -> list nat -> list nat -> acc_outcome.

  (** CostRefiner.py:29-52, 117-125 *)
  Definition eval_split (inf : list nat) (p : list (list nat)) (cs : cstate) (c : nat) : res cstate :=
    do scen <- geti p c ;;
    let i := filter (fun s => memb s inf) scen in
    match mem_get (c_mem cs) scen i with
    | None =>
        do (v, l, r) <- acc_read scen (acc (c_calls cs) scen i) ;;
        Ok (mkC (dset c v (c_cost cs)) (dset c l (c_left cs)) (dset c r (c_right cs))
                (c_mem cs ++ [((scen, i), (v, l, r))]) (S (c_calls cs)))
    | Some (v, l, r) =>
        Ok (mkC (dset c v (c_cost cs)) (dset c l (c_left cs)) (dset c r (c_right cs))
                (c_mem cs) (c_calls cs))
    end.

  Fixpoint eval_splits (inf : list nat) (p : list (list nat)) (cs : cstate) (l : list nat) : res cstate :=
    match l with
    | [] => Ok cs
    | c :: l' => do cs' <- eval_split inf p cs c ;; eval_splits inf p cs' l'
    end.

  (** CostRefiner.py:54-78 (with nb_top = None) *)
  Definition evaluate_accurate_splits (inf : list nat) (p : list (list nat)) (cs : cstate)
      (sorted : list nat) : res cstate :=
    let nb := count_infeasible p inf in
    do cand <- rmap (fun c => do n <- geti nb c ;; Ok (c, n)) sorted ;;
    eval_splits inf p (mkC [] [] [] (c_mem cs) (c_calls cs))
      (map fst (filter (fun cn => 2 <=? snd cn) cand)).

  (** CostRefiner.py:83-91: last candidate of largest cost, among costs at least -1e6.
      [None] stands for split_c = -1. *)
  Fixpoint select_free (l : list (nat * Q)) (best : option nat) (v : Q) : option nat :=
    match l with
    | [] => best
    | (c, w) :: l' => if Qle_bool v w then select_free l' (Some c) w else select_free l' best v
    end.
  (** [min(d, key=d.get)]: first key of least value. *)
  Fixpoint dmin_aux (l : list (nat * Q)) (c : nat) (v : Q) : nat :=
    match l with
    | [] => c
    | (c', v') :: l' => if Qlt_bool v' v then dmin_aux l' c' v' else dmin_aux l' c v
    end.
  Definition dmin (d : list (nat * Q)) : res nat :=
    match d with [] => Err ValueError | (c, v) :: l => Ok (dmin_aux l c v) end.

  (** CostRefiner.py:83-93.  split_c = -1 makes the next dictionary access fail. *)
  Definition select_split (cost : list (nat * Q)) (vUB : ext) : res nat :=
    let free := filter (fun cv => ext_leb (Fin (snd cv)) vUB) cost in
    match free with
    | [] => dmin cost
    | _ => match select_free free None (- 1000000)%Q with
           | Some c => Ok c
           | None => Err KeyError
           end
    end.

  (** CostRefiner.py:80-115 *)
  Definition perform_accurate_split (inf : list nat) (vUB : ext) (st : rstate) (cs : cstate)
    : res (rstate * cstate) :=
    do c <- select_split (c_cost cs) vUB ;;
    do l <- dget c (c_left cs) ;;
    do _ <- geti (r_part st) c ;;
    do r <- dget c (c_right cs) ;;
    let p := upd c l (r_part st) ++ [r] in
    let nb := count_infeasible p inf in
    do nc <- geti nb c ;;
    do cs1 <- (if 2 <=? nc then eval_split inf p cs c
               else Ok (mkC (dpop c (c_cost cs)) (c_left cs) (c_right cs) (c_mem cs) (c_calls cs))) ;;
    let new_c := length p - 1 in
    do nn <- geti nb new_c ;;
    do cs2 <- (if 2 <=? nn then eval_split inf p cs1 new_c else Ok cs1) ;;
    Ok (mkR p (add_new (r_new st) c new_c) (S (r_cnt st)), cs2).

  (** Refiner.py:177-179: each turn increments the counter, so [mu] turns are made. *)
  Fixpoint cost_loop (n : nat) (inf : list nat) (vUB : ext) (st : rstate) (cs : cstate)
    : res (rstate * cstate) :=
    match n with
    | 0 => Ok (st, cs)
    | S n' => do (st', cs') <- perform_accurate_split inf vUB st cs ;; cost_loop n' inf vUB st' cs'
    end.

  (** Refiner.py:170-183 with accurate splits; CostRefiner.py:22-27 (sorting of subsets); Refiner.py:185-197. *)
  Definition split_top_mu_cost (argsort : list Q -> list nat) (costs : list Q) (vUB : ext)
      (inf : list nat) (cs : cstate) (mu : nat) (st : rstate) : res (rstate * cstate) :=
    do _ <- rassert (length costs =? length (r_part st)) ;;
    do cs1 <- evaluate_accurate_splits inf (r_part st) cs (argsort costs) ;;
    do (st', cs') <- cost_loop (mu - r_cnt st) inf vUB st cs1 ;;
    do _ <- rassert (r_cnt st' =? mu) ;;
    Ok (st', cs').

  (** Refiner.py:232-251 for a CostRefiner. *)
  Definition refine_cost (argsort : list Q -> list nat) (I : inst) (f : feas) (costs : list Q)
      (vUB : ext) (cs : cstate) (old : list (list nat)) : res (refinement * cstate) :=
    refine_with I f old (split_top_mu_cost argsort costs vUB (f_infeasible f) cs).
End Cost.

(** State of a new CostRefiner (CostRefiner.py:11-15). *)
Definition cstate0 : cstate := mkC [] [] [] [] 0.

(** Memories built by a history of successful refinements (used in statements). *)
Inductive cost_reachable (acc : nat -> list nat -> list nat -> acc_outcome)
    (argsort : list Q -> list nat) (I : inst) : cstate -> Prop :=
| CR_start : cost_reachable acc argsort I cstate0
| CR_step cs bad fm costs vUB old R cs' : cost_reachable acc argsort I cs ->
    valid_partition (i_k I) old -> length costs = length old ->
    nb_bad bad old <= tolerated I -> tolerated I < count bad (seq 0 (i_k I)) ->
    refine_cost acc argsort I (pattern (i_k I) bad fm) costs vUB cs old = Ok (R, cs') ->
    cost_reachable acc argsort I cs'.
