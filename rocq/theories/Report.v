(** Model of the result rows: src/solver/Solver.py:42-64, src/solver/MilpSolver.py:41-45, 68-82, src/Informer.py:33-42,
    src/solver/AdaptivePartitioner.py:338-360.  A cell stands for its text: the value that [float] (or the csv reader, for the first
    cell) gives back.  The csv syntax (separator, quotes, line ends) is not modelled. *)
From Coq Require Import String.
From Verif Require Import Base Spec Instance OptModels Bounds Refine CostRefine Merge Knapsack Violations BigM Adaptive Milp.

Inductive cell : Type :=
| CText (s : string)
| CInt (z : Z)
| CFloat (g : gapv).

(** "{:.df}".format: correct rounding to d decimals, halves to even; inf and nan are written as such. *)
Definition pow10 (d : nat) : Q := inject_Z (10 ^ Z.of_nat d).
Definition fixed (d : nat) (g : gapv) : gapv :=
  match g with
  | Some (Fin q) => Some (Fin (inject_Z (Qrnd (q * pow10 d)) / pow10 d)%Q)
  | _ => g
  end.
Definition times100 (g : gapv) : gapv :=
  match g with Some (Fin q) => Some (Fin (q * 100)%Q) | _ => g end.
Definition finite (q : Q) : gapv := Some (Fin q).

(** Solver.py:42-64.  [final] is TimeManager.final_time: None before set_final_time (TimeManager.py:7, 15-17, 36-38). *)
Definition instance_details (name : string) (I : inst) : res (list cell) :=
  if (i_n I =? 0) || (i_k I =? 0) then Err IndexError
  else Ok [CText name; CInt (Z.of_nat (i_n I)); CInt (Z.of_nat (i_m I)); CInt (Z.of_nat (i_k I));
           CInt (if i_cont I then 1 else 0); CFloat (fixed 3 (finite (i_eps I)))].
Definition computation_details (final : option Q) (s : ast) : res (list cell) :=
  match final with
  | None => Err TypeError
  | Some t =>
      do g <- compute_gap (a_vUB s) (a_npU s) (a_vLB s) (a_npL s) ;;
      Ok [CFloat (fixed 3 (finite (t - a_start s)%Q)); CFloat (fixed 3 (Some (a_vLB s)));
          CFloat (fixed 3 (Some (a_vUB s))); CFloat (fixed 3 (times100 g))]
  end.

(** MilpSolver.py:19-37: the method is selected by its name. *)
Definition bigm_of_string (m : string) : bigm_method :=
  if String.eqb m "belotti" then Belotti
  else if String.eqb m "song" then Song
  else if String.eqb m "naive" then Naive else OtherM.
(** MilpSolver.py:41-45 *)
Definition method_code (m : string) : Z :=
  ((if String.eqb m "naive" then 1 else 0) + 2 * (if String.eqb m "ahmed_belotti" then 1 else 0)
   + 3 * (if String.eqb m "qiu_et_al" then 1 else 0))%Z.

(** MilpSolver.py:68-82.  [bt] is the attribute big_m_time, None when it was never set. *)
Definition milp_row (name : string) (I : inst) (cf : cfg) (use_big_m : bool) (m : string) (bt : option Q)
    (final : option Q) (s : ast) : res (list cell) :=
  let params := [CFloat (fixed 3 (finite (c_limit cf))); CFloat (fixed 3 (finite (c_gap cf * 100)%Q));
                 CInt (if use_big_m then 1 else 0); CInt (method_code m)] in
  do details <- instance_details name I ;;
  do comp <- computation_details final s ;;
  match bt with
  | None => Err AttributeError
  | Some t => Ok (details ++ params ++ [CFloat (finite t)] ++ comp)
  end.

(** Informer.py:33-42: the dictionary and its three lookups. *)
Definition counter_dict (key : string) : res Z :=
  if String.eqb key "counter" then Ok 1%Z
  else if String.eqb key "rescaled_max_violation" then Ok 5%Z else Err KeyError.
Definition adaptive_details (split init proj : string) : res (list cell) :=
  do a <- counter_dict split ;; do b <- counter_dict init ;; do c <- counter_dict proj ;;
  Ok [CInt a; CInt b; CInt c].

(** AdaptivePartitioner.py:338-360.  The attributes use_big_M and iteration are set in solve (276, 287): [solved] and
    [started] tell whether these assignments were reached. *)
Definition adaptive_row (name : string) (I : inst) (cf : cfg) (split init proj : string) (solved started : bool)
    (final : option Q) (s : ast) : res (list cell) :=
  if negb solved then Err AttributeError
  else
    let params := [CFloat (fixed 3 (finite (c_limit cf))); CFloat (fixed 3 (finite (c_gap cf * 100)%Q));
                   CInt (if c_bigM cf then 1 else 0)] in
    do det <- adaptive_details split init proj ;;
    do details <- instance_details name I ;;
    do comp <- computation_details final s ;;
    if negb started then Err AttributeError
    else Ok (details ++ params ++ det ++ [CInt (Z.of_nat (a_iter s)); CInt (Z.of_nat (v_k (a_view s)))] ++ comp).

(** AdaptivePartitioner.py:45-58 *)
Definition split_of_string (m : string) : split_method :=
  if String.eqb m "random" then SplitRandom else if String.eqb m "cost" then SplitCost else SplitOther.
Definition init_refiner (m : string) (acc : bool) : res split_method :=
  match split_of_string m with
  | SplitRandom => Ok SplitRandom
  | SplitCost => do _ <- rassert acc ;; Ok SplitCost
  | SplitOther => Err ValueError
  end.

(** A row read back (format_results.py:5-9, 25-27): name, then numbers. *)
Definition cell_float (c : cell) : res gapv :=
  match c with
  | CText _ => Err ValueError
  | CInt z => Ok (finite (inject_Z z))
  | CFloat g => Ok g
  end.
Definition read_row (l : list cell) : res (cell * list gapv) :=
  match l with
  | [] => Err IndexError
  | c :: l' => do v <- rmap cell_float l' ;; Ok (c, v)
  end.
(** row[i] and row[-i] of the list [name] + numbers; the name itself is not a number. *)
Definition row_at (r : cell * list gapv) (i : nat) : res gapv :=
  match i with 0 => Err TypeError | S j => geti (snd r) j end.
Definition row_neg (r : cell * list gapv) (i : nat) : res gapv :=
  if (1 <=? i) && (i <=? S (length (snd r))) then row_at r (S (length (snd r)) - i) else Err IndexError.
