(** Model of src/refiner/Refiner.py and src/refiner/RandomRefiner.py.
    [perm t n] is the result of the t-th call to random.sample/random.shuffle on n elements,
    as a list of positions; the call counter is threaded. *)
From Verif Require Import Base Spec Instance.

(** State of a refinement: partition under construction, [new_subsets], [mu_counter].
    [splitted_subsets] (Refiner.py:24,164-165; CostRefiner.py:111-112) is never read and is not modelled. *)
Record rstate : Type := mkR { r_part : list (list nat); r_new : list nat; r_cnt : nat }.

(** Result of refine: the partition and the attributes read by AdaptivePartitioner. *)
Record refinement : Type := mkRefinement {
  rf_part : list (list nat);
  rf_new : list nat;
  rf_mu : nat;
  rf_feasible : list nat;
  rf_infeasible : list nat
}.

(** Refiner.py:39-60 *)
Definition count_infeasible (p : list (list nat)) (inf : list nat) : list nat :=
  map (fun S => count (fun s => memb s inf) S) p.

(** Refiner.py:62-75 *)
Definition find_infeasible_subsets (p : list (list nat)) (inf : list nat) : list nat * list nat :=
  let nb := count_infeasible p inf in
  (filter (fun c => nth c nb 0 =? 0) (seq 0 (length p)),
   filter (fun c => negb (nth c nb 0 =? 0)) (seq 0 (length p))).

(** Refiner.py:77-98 *)
Definition number_of_splits (I : inst) (nb_infeasible : nat) : res nat :=
  let mu := (Qfloor (i_eps I * Qn (i_k I)) + 1 - Z.of_nat nb_infeasible)%Z in
  do _ <- rassert (1 <=? mu)%Z ;;
  Ok (Z.to_nat mu).

(** Refiner.py:108-122 *)
Definition split_sorted_subset (l : list nat) : res (list nat * list nat) :=
  do _ <- rassert (2 <=? length l) ;;
  Ok (stride 0 2 l, stride 1 2 l).

(** Refiner.py:124-131 *)
Definition split_scenarios (l : list nat) : res (list nat * list nat) :=
  if 2 <=? length l then split_sorted_subset l else Ok (l, []).

Definition set_eqb (l l' : list nat) : bool :=
  forallb (fun a => memb a l') l && forallb (fun a => memb a l) l'.

(** Refiner.py:133-150.  [flags] is is_scenario_infeasible. *)
Definition split_scenarios_subset (flags : list bool) (p : list (list nat)) (scen : list nat) (c : nat)
  : res (list (list nat)) :=
  do sub <- geti p c ;;
  do _ <- rassert (length sub =? length scen) ;;
  do _ <- rassert (set_eqb sub scen) ;;
  do fl <- rmap (fun s => geti flags s) scen ;;
  let inf := map fst (filter snd (combine scen fl)) in
  let feas := map fst (filter (fun sf => negb (snd sf)) (combine scen fl)) in
  do _ <- rassert (2 <=? length inf) ;;
  do (li, ri) <- split_scenarios inf ;;
  do (lf, rf) <- split_scenarios feas ;;
  Ok (upd c (li ++ lf) p ++ [ri ++ rf]).

(** [random.sample(l, len(l))], [random.shuffle] (RandomRefiner.py:9-14, RandomRefiner.py:16-24). *)
Definition shuffle (perm : nat -> nat -> list nat) (t : nat) (l : list nat) : list nat :=
  map (fun i => nth i l 0) (perm t (length l)).

(** Bookkeeping of Refiner.py:164-168 and CostRefiner.py:112-115. *)
Definition add_new (new : list nat) (c last : nat) : list nat :=
  (if memb c new then new else new ++ [c]) ++ [last].

(** Refiner.py:152-168: the loop over the sorted subsets. *)
Fixpoint traverse (perm : nat -> nat -> list nat) (flags : list bool) (mu : nat) (nbinf : list nat)
    (st : rstate) (t : nat) (subsets : list nat) : res (rstate * nat) :=
  match subsets with
  | [] => Ok (st, t)
  | c :: cs =>
      do ni <- (if r_cnt st <? mu then geti nbinf c else Ok 0) ;;
      if (r_cnt st <? mu) && (2 <=? ni) then
        do sub <- geti (r_part st) c ;;
        let scen := shuffle perm t sub in
        do p' <- split_scenarios_subset flags (r_part st) scen c ;;
        traverse perm flags mu nbinf
          (mkR p' (add_new (r_new st) c (length p' - 1)) (S (r_cnt st))) (S t) cs
      else traverse perm flags mu nbinf st t cs
  end.

(** Refiner.py:170-183 without accurate splits; RandomRefiner.py:16-24.  One unit of fuel
    per turn of the while loop. *)
Fixpoint random_loop (fuel : nat) (perm : nat -> nat -> list nat) (flags : list bool) (inf : list nat)
    (mu : nat) (st : rstate) (t : nat) : res (rstate * nat) :=
  if r_cnt st <? mu then
    match fuel with
    | 0 => Err NonTermination
    | S fuel' =>
        let subsets := shuffle perm t (seq 0 (length (r_part st))) in
        do (st', t') <- traverse perm flags mu (count_infeasible (r_part st) inf) st (S t) subsets ;;
        random_loop fuel' perm flags inf mu st' t'
    end
  else
    do _ <- rassert (r_cnt st =? mu) ;; Ok (st, t).

Definition part_eqb (p q : list (list nat)) : bool :=
  if list_eq_dec (list_eq_dec Nat.eq_dec) p q then true else false.

(** Refiner.py:200-230 *)
Definition check_final_partition (k : nat) (p old : list (list nat)) (mu : nat) : res unit :=
  do _ <- rassert (negb (part_eqb p old)) ;;
  do _ <- rassert (forallb (fun S => negb (length S =? 0)) p) ;;
  do _ <- rassert (forallb (fun S => negb (length S =? 0)) old) ;;
  do _ <- rassert (length p =? length old + mu) ;;
  do _ <- rassert (set_eqb (concat p) (seq 0 k)) ;;
  do _ <- rassert (length (concat p) =? k) ;;
  rassert (length old <? length p).

(** Refiner.py:10-37 (state before refining), Refiner.py:232-251 around the splitting step [split mu st]. *)
Definition refine_with {X} (I : inst) (f : feas) (old : list (list nat))
    (split : nat -> rstate -> res (rstate * X)) : res (refinement * X) :=
  let '(_, infsub) := find_infeasible_subsets old (f_infeasible f) in
  do mu <- number_of_splits I (length infsub) ;;
  do (st, x) <- split mu (mkR old [] 0) ;;
  do _ <- check_final_partition (i_k I) (r_part st) old mu ;;
  let '(feasub, infsub') := find_infeasible_subsets (r_part st) (f_infeasible f) in
  Ok (mkRefinement (r_part st) (r_new st) mu feasub infsub', x).

(** RandomRefiner with use_acc_obj=False. *)
Definition refine_random (fuel : nat) (perm : nat -> nat -> list nat) (I : inst) (f : feas)
    (t : nat) (old : list (list nat)) : res (refinement * nat) :=
  refine_with I f old
    (fun mu st => random_loop fuel perm (f_flags f) (f_infeasible f) mu st t).

(** Infeasibility data stored by check_feasibility when the violated scenarios are the [bad] ones
    (used in statements). *)
Definition pattern (k : nat) (bad : nat -> bool) (fm : list Q) : feas :=
  mkFeas (map bad (seq 0 k)) (filter bad (seq 0 k)) fm.

(** What refine returns, whatever the splitting method (used in statements). *)
Definition refinement_ok (k : nat) (bad : nat -> bool) (mu : nat) (old : list (list nat)) (R : refinement) : Prop :=
  refined_by k bad mu old (rf_part R) /\
  changed_indices old (rf_part R) (rf_new R) /\
  rf_mu R = mu /\
  rf_feasible R = good_indices bad (rf_part R) /\
  rf_infeasible R = bad_indices bad (rf_part R) /\
  Forall (fun c => existsb bad (nth c (rf_part R) []) = true) (rf_new R).
