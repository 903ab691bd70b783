(** Model of src/instance/ChanceInstance.py, src/instance/ChanceKnapInstance.py,
    src/instance/PartitionChanceKnapInstance.py and of the file writer
    data/cc-instances/knapsack/instance-generator.py.
    Numbers are exact rationals: floating-point rounding is not modelled here. *)
From Verif Require Import Base Spec.

(** ** Rounding *)

(** [np.rint]: nearest integer, halves to even. *)
Definition Qrnd (q : Q) : Z :=
  let f := Qfloor q in
  let d := (q - inject_Z f)%Q in
  if Qlt_bool d (1 # 2) then f
  else if Qlt_bool (1 # 2) d then (f + 1)%Z
  else if Z.even f then f else (f + 1)%Z.

(** ChanceKnapInstance.py:42-44, [np.round(., decimals=1)] (numpy: rint(10 x)/10). *)
Definition round1 (q : Q) : Q := (inject_Z (Qrnd (10 * q)) / 10)%Q.

(** instance-generator.py:59, [np.round(., 4)]. *)
Definition round4 (q : Q) : Q := (inject_Z (Qrnd (10000 * q)) / 10000)%Q.

(** Python [int(.)] on a float: truncation towards zero. *)
Definition Qtrunc (q : Q) : Z := if Qlt_bool q 0 then (- Qfloor (- q))%Z else Qfloor q.

(** ** Parsing *)

(** Python indexing [l[i]] with a non-negative index. *)
Definition geti {A} (l : list A) (i : nat) : res A :=
  match nth_error l i with Some a => Ok a | None => Err IndexError end.

Fixpoint rmap {A B} (f : A -> res B) (l : list A) : res (list B) :=
  match l with
  | [] => Ok []
  | a :: l' => do b <- f a ;; do bs <- rmap f l' ;; Ok (b :: bs)
  end.

(** All rows have the same length: otherwise np.array(matrices_A_list) is ragged and
    numpy raises ValueError. *)
Definition rectangular (M : list (list (list Q))) : bool :=
  match concat M with
  | [] => true
  | r :: rs => forallb (fun r' => Nat.eqb (length r') (length r)) rs
  end.

(** ChanceKnapInstance.py:37-39, [np.broadcast_to(row, (k, m))]. *)
Definition broadcast (r : list Q) (k m : nat) : res (list (list Q)) :=
  if Nat.eqb (length r) m then Ok (repeat r k)
  else match r with
       | [v] => Ok (repeat (repeat v m) k)
       | _ => Err ValueError
       end.

(** ChanceKnapInstance.py:9-24 (_parse_indices), ChanceKnapInstance.py:46-59 (_parse_additional_parameters),
    ChanceKnapInstance.py:26-44 (_parse_model_data), in the order of ChanceInstance.py:29-34 (parse_data).
    The file is its list of csv rows (ChanceInstance.py:22-27); the csv text is in Text.v.
    As in the code the lengths of the rows are not compared with [nb_vars]. *)
Definition parse (rows : list (list Q)) (cont : bool) (eps : Q) : res inst :=
  do info <- geti rows 0 ;;
  do fn <- geti info 0 ;;
  do fk <- geti info 2 ;;
  let n := Qtrunc fn in
  let k := Qtrunc fk in
  do fm <- geti info 1 ;;
  let m := Qtrunc fm in
  if ((n <? 0)%Z || (k <? 0)%Z) then Err ValueError            (* np.full of negative size *)
  else
    let n := Z.to_nat n in
    let k := Z.to_nat k in
    do c <- geti rows 1 ;;
    let mm := Z.to_nat m in                                     (* range(m) *)
    do A <- rmap (fun s => rmap (fun i => geti rows (2 + s * mm + i)) (seq 0 mm)) (seq 0 k) ;;
    if negb (rectangular A) then Err ValueError
    else if Nat.eqb k 0 then Err IndexError                     (* self.nb_constraints[0] *)
    else if (m <? 0)%Z then Err ValueError                      (* broadcast_to negative size *)
    else
      do b <- broadcast (last rows []) k mm ;;
      Ok (mkInst n mm k cont eps (map round1 c)
            (map (map (map round1)) A) (map (map round1) b)).

(** ChanceKnapInstance.py:40: equal probabilities. *)
Definition uniform (k : nat) : list Q := repeat (1 / Qn k)%Q k.

(** instance-generator.py:50-59: a sample, with negatives removed, rounded to 4 decimals.
    The random samples themselves are inputs. *)
Definition gen_entry (sample : Q) : Q :=
  round4 (if Qlt_bool sample 0 then 0%Q else sample).

(** instance-generator.py:66-72: rows written to the file, for [m] constraints,
    [n] items, the base objective/right-hand side and one sample matrix per scenario. *)
Definition gen_rows (n m : nat) (c : list Q) (samples : list (list (list Q))) (b : list Q)
  : list (list Q) :=
  [Qn n; Qn m; Qn (length samples)] :: c ::
  concat (map (map (map gen_entry)) samples) ++ [b].

(** ** Feasibility checks; [norm] is [np.linalg.norm] *)

(** ChanceKnapInstance.py:61-68 *)
Definition constraint_violation (A_si x : list Q) (b_si : Q) : Q := Qmax (dot A_si x - b_si) 0.

(** ChanceKnapInstance.py:81-97: violations of one scenario larger than 1e-6, rescaled. *)
Definition scenario_infeasibility (norm : list Q -> Q) (I : inst) (x : list Q) (s : nat) : list Q :=
  flat_map (fun i =>
    let v := constraint_violation (row I s i) x (rhs I s i) in
    if Qlt_bool tol6 v then
      let r := norm (row I s i) in
      [if Qeq_bool r 0 then v else (v / r)%Q]
    else []) (seq 0 (i_m I)).

(** ChanceKnapInstance.py:70-79, 99-105 *)
Definition is_scenario_infeasible (norm : list Q -> Q) (I : inst) (x : list Q) (s : nat) : bool :=
  negb (Nat.eqb (length (scenario_infeasibility norm I x s)) 0).

(** ChanceKnapInstance.py:108-123: verdict, number of infeasible scenarios, tolerance,
    flags, violations. *)
Definition is_feasible (norm : list Q -> Q) (I : inst) (x : list Q)
  : bool * nat * Q * list bool * list (list Q) :=
  let infeas := map (scenario_infeasibility norm I x) (seq 0 (i_k I)) in
  let flags := map (is_scenario_infeasible norm I x) (seq 0 (i_k I)) in
  let nb := count (fun f => f) flags in
  let tolerance := (i_eps I * Qn (i_k I))%Q in
  (Qle_bool (Qn nb) tolerance, nb, tolerance, flags, infeas).

(** State stored on the instance by check_feasibility. *)
Record feas := mkFeas {
  f_flags : list bool;             (* is_scenario_infeasible *)
  f_infeasible : list nat;         (* infeasible_scenarios *)
  f_max : list Q                   (* max_infeasibility_scenarios *)
}.

Definition qmax_list (l : list Q) : Q := fold_right Qmax 0%Q l.

(** ChanceKnapInstance.py:125-152.  [np.max] of a non-empty list of positive numbers. *)
Definition check_feasibility (norm : list Q -> Q) (I : inst) (x : list Q) : bool * feas :=
  let '(ok, _, _, flags, infeas) := is_feasible norm I x in
  (ok, mkFeas flags
         (map fst (filter snd (combine (seq 0 (length flags)) flags)))
         (map qmax_list infeas)).

(** ChanceKnapInstance.py:154-164 *)
Definition get_feasible_scenarios (f : feas) : list bool :=
  map (fun v => Qeq_bool v 0) (f_max f).

(** ** Instance interface seen by the optimisation models: the original instance or the
    partitioned one (scenarios = subsets). *)
Record view := mkView {
  v_n : nat;                       (* get_nb_vars *)
  v_cont : bool;                   (* get_var_type *)
  v_c : list Q;                    (* get_vector_c *)
  v_k : nat;                       (* get_nb_scenarios *)
  v_A : list (list (list Q));      (* get_matrix_A(s) *)
  v_b : list (list Q);             (* get_vector_b(s) *)
  v_p : list Q;                    (* get_proba *)
  v_eps : Q                        (* get_epsilon *)
}.

(** ChanceInstance.py:9-19, ChanceInstance.py:44-122: the attributes are never None, so the getters do not raise. *)
Definition view_inst (I : inst) (proba : list Q) : view :=
  mkView (i_n I) (i_cont I) (i_c I) (i_k I) (i_A I) (i_b I) proba (i_eps I).

(** [proba[subset].min()]: ValueError on an empty selection. *)
Definition qmin_list (l : list Q) : res Q :=
  match l with
  | [] => Err ValueError
  | a :: l' => Ok (fold_left Qmin l' a)
  end.

(** PartitionChanceKnapInstance.py:14-29 (load_partition), PartitionChanceKnapInstance.py:9-11 and PartitionChanceKnapInstance.py:31-72 (getters).
    numpy fancy indexing raises IndexError out of range.
    Simplification: with zero subsets the code divides by a numpy zero (epsilon becomes
    inf or nan); here this is [Err ZeroDivisionError]. *)
Definition load_partition (I : inst) (proba : list Q) (nb : nat) (p : list (list nat))
  : res view :=
  do subsets <- rmap (fun c => geti p c) (seq 0 nb) ;;
  do mats <- rmap (fun S => rmap (fun s => geti (i_A I) s) S) subsets ;;
  do vecs <- rmap (fun S => rmap (fun s => geti (i_b I) s) S) subsets ;;
  do probs <- rmap (fun S => do ps <- rmap (fun s => geti proba s) S ;; qmin_list ps) subsets ;;
  let total := qsum probs in
  if Qeq_bool total 0 then Err ZeroDivisionError
  else Ok (mkView (i_n I) (i_cont I) (i_c I) nb
             (map (@concat _) mats) (map (@concat _) vecs)
             (map (fun q => (q / total)%Q) probs) (i_eps I / total)%Q).

(** Constraint [i] of scenario/subset [s] of a view. *)
Definition v_row (V : view) (s i : nat) : list Q := nth i (nth s (v_A V) []) [].
Definition v_rhs (V : view) (s i : nat) : Q := nth i (nth s (v_b V) []) 0%Q.
Definition v_m (V : view) (s : nat) : nat := length (nth s (v_A V) []).
