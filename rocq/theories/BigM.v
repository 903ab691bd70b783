(** Model of src/BigMFinder.py. *)
From Verif Require Import Base Spec Instance OptModels Knapsack Violations.

(** BigMFinder.py:28-38.  The assertion compares two getters of the same view. *)
Definition naive_bigM (V : view) (s : nat) : list Q :=
  map (fun i => (qsum (v_row V s i) - v_rhs V s i)%Q) (seq 0 (v_m V s)).

(** BigMFinder.py:25, 222 *)
Definition naive_all (V : view) (nb : nat) : list (list Q) := map (naive_bigM V) (seq 0 nb).

(** BigMFinder.py:40-61 *)
Definition belotti_cont (argsort : list Q -> list nat) (V : view) (s i : nat) (vUB : ext) : res Q :=
  solve_continuous_knapsack argsort (v_row V s i) (v_rhs V s i) (v_c V) vUB.

(** BigMFinder.py:71-86: ObjBound of the knapsack model. *)
Definition belotti_mip (o : outcome) : res Q :=
  do o <- optimize o ;; do (_, _, _, b) <- get_solution o ;; Ok b.

(** [sum(var_type == 0) > 0]: some variable is integer (BigMFinder.py:118-119). *)
Definition integer_vars (V : view) : bool := negb (v_cont V) && (0 <? v_n V).

(** BigMFinder.py:102-146.  [t] counts the calls of the solver.  The knapsack model is built
    once and its objective replaced (BigMKnapsackModel.py:37-47): each call sees
    [big_m_knapsack_model V vUB s i]. *)
Fixpoint belotti_row (solve : nat -> model -> outcome) (V : view) (vUB : ext) (s : nat) (l : list nat)
    (t : nat) : res (list Q) * nat :=
  match l with
  | [] => (Ok [], t)
  | i :: l' =>
      match belotti_mip (solve t (big_m_knapsack_model V vUB s i)) with
      | Err e => (Err e, S t)
      | Ok b => let '(r, t') := belotti_row solve V vUB s l' (S t) in
                ((do bs <- r ;; Ok (b :: bs)), t')
      end
  end.
Fixpoint belotti_rows (solve : nat -> model -> outcome) (V : view) (vUB : ext) (l : list nat)
    (t : nat) : res (list (list Q)) * nat :=
  match l with
  | [] => (Ok [], t)
  | s :: l' =>
      let '(r, t1) := belotti_row solve V vUB s (seq 0 (v_m V s)) t in
      match r with
      | Err e => (Err e, t1)
      | Ok row => let '(rs, t2) := belotti_rows solve V vUB l' t1 in
                  ((do rs' <- rs ;; Ok (row :: rs')), t2)
      end
  end.
Definition belotti_all (argsort : list Q -> list nat) (solve : nat -> model -> outcome) (V : view)
    (vUB : ext) (nb : nat) (t : nat) : res (list (list Q)) * nat :=
  if integer_vars V then belotti_rows solve V vUB (seq 0 nb) t
  else (rmap (fun s => rmap (fun i => belotti_cont argsort V s i vUB) (seq 0 (v_m V s))) (seq 0 nb), t).

(** Sorting of a numpy vector. *)
Definition ext_sort (l : list ext) : list ext := isort ext_leb l.

(** BigMFinder.py:94-99 *)
Definition quantile_big_m (eps : Q) (nb : nat) (violations : list ext) : res ext :=
  geti (ext_sort violations) (Z.to_nat (Qfloor (eps * Qn nb) + 1)).

(** [min] over a subset of the violations (BigMFinder.py:197-199): ValueError when empty. *)
Definition ext_min_list (l : list ext) : res ext :=
  match l with [] => Err ValueError | a :: l' => Ok (fold_left ext_min l' a) end.

(** BigMFinder.py:190-207 for one (scenario, constraint); [part] is None for a plain instance. *)
Definition song_big_m (I : inst) (tab : list ext) (part : option (list (list nat))) (eps : Q) (nb : nat)
    (s i : nat) : res ext :=
  let all := map (fun t => vget tab (i_k I) (i_m I) s t i) (seq 0 (i_k I)) in
  do viol <- match part with
             | None => Ok all
             | Some p => rmap (fun sub => do l <- rmap (fun t => geti all t) sub ;; ext_min_list l) p
             end ;;
  quantile_big_m eps nb viol.

(** A big M is a float; inf is kept as is by numpy. *)
(** BigMFinder.py:148-203: plain instance and partitioned instance. *)
Definition song_all (I : inst) (tab : list ext) (part : option (list (list nat))) (eps : Q) (nb : nat)
  : res (list (list ext)) :=
  match part with
  | None => rmap (fun s => rmap (fun i => song_big_m I tab None eps nb s i) (seq 0 (i_m I))) (seq 0 nb)
  | Some p =>
      rmap (fun c =>
        do sub <- geti p c ;;
        rmap (fun j =>
          do s <- geti sub (j / i_m I) ;;
          song_big_m I tab part eps nb s (j mod i_m I)) (seq 0 (length sub * i_m I))) (seq 0 nb)
  end.
