(** Model of export_results.py and src/export/format_results.py: reading of the result files, aggregation, tables.
    The csv syntax is not modelled (Report.v): a file is its first row, a table entry stands for its text. *)
From Coq Require Import String.
From Verif Require Import Base Spec Instance OptModels Bounds Refine CostRefine Merge Knapsack Violations BigM Adaptive Milp Report Main.

(** ** Floating-point numbers with inf and nan (gapv); rounding is not modelled *)
Definition gadd (a b : gapv) : gapv :=
  match a, b with
  | Some (Fin x), Some (Fin y) => Some (Fin (x + y)%Q)
  | Some PInf, Some NInf | Some NInf, Some PInf => None
  | Some PInf, Some _ | Some _, Some PInf => Some PInf
  | Some NInf, Some _ | Some _, Some NInf => Some NInf
  | _, _ => None
  end.
(** a / n for an integer n *)
Definition gdiv (a : gapv) (n : nat) : res gapv :=
  if n =? 0 then Err ZeroDivisionError
  else Ok (match a with Some (Fin x) => Some (Fin (x / Qn n)%Q) | _ => a end).
Definition gleb (a b : gapv) : bool :=
  match a, b with Some x, Some y => ext_leb x y | _, _ => false end.
Definition gfinite (a : gapv) : bool := match a with Some (Fin _) => true | _ => false end.
Definition ginf : gapv := Some PInf.

(** A result row: name and numbers.  None stands for the empty list of a missing file. *)
Definition row_t : Type := (cell * list gapv)%type.

(** format_results.py:18-31.  [fs] maps a path to the first row of the file. *)
Definition read_single_experiment (fs : string -> option (list cell)) (indir i : string) (s j : Z) (pct : Q) (cont m : Z)
    : res (option row_t) :=
  match fs (read_name indir i s j pct cont m) with
  | None => Ok None
  | Some cells => do r <- read_row cells ;; Ok (Some r)
  end.

(** Entries of a table: "-" , a number, "x.xxs", "x.xx\%(n)", text of the first columns, bold. *)
Inductive entry : Type :=
| EDash
| ENum (g : gapv)
| ETime (g : gapv)
| EGap (g : gapv) (solved : nat)
| EInst (s : string)      (* "\textsf{..}" or "" *)
| EEps (e : option Q)     (* None: "" *)
| EScen (n : Z)
| EBold (e : entry).

(** ** format_results.py:34-90 *)
Definition memZ (x : Z) (l : list Z) : bool := existsb (Z.eqb x) l.
(** 44-55 *)
Definition is_solved (required : Q) (r : row_t) : res bool :=
  do g <- row_neg r 1 ;; Ok (gleb g (finite (required + (1 # 10000000))%Q)).
Fixpoint count_solved (required : Q) (rows : list row_t) (nb : nat) (all : bool) : res (nat * bool) :=
  match rows with
  | [] => Ok (nb, all)
  | r :: rs => do b <- is_solved required r ;;
               if b then count_solved required rs (S nb) all else count_solved required rs nb false
  end.
(** 63-75 *)
Fixpoint sum_entries (all part : bool) (rows : list row_t) (t0 t1 : gapv) : res (gapv * gapv) :=
  match rows with
  | [] => Ok (t0, t1)
  | r :: rs =>
      do a <- row_neg r (if all then 4 else 1) ;;
      do b <- (if part then (do v <- row_neg r 6 ;; Ok (gadd t1 v)) else Ok t1) ;;
      sum_entries all part rs (gadd t0 a) b
  end.
(** [rows] are experiment_results[j-1] for j in all_instance_ids = 1..[ids]. *)
Definition format_method (results : list row_t) (m : Z) (ids : nat) (required : Q) (milp part : list Z)
    : res (gapv * nat * gapv * list entry) :=
  do rows <- rmap (fun j => geti results j) (seq 0 ids) ;;
  do (nb, all) <- count_solved required rows 0 true ;;
  do (t0, t1) <- sum_entries all (memZ m part) rows (finite 0) (finite 0) ;;
  do a0 <- gdiv t0 ids ;;
  do a1 <- gdiv t1 ids ;;
  let e0 := if all then ETime (fixed 2 a0) else EGap (fixed 2 a0) nb in
  Ok (if all then a0 else ginf, nb, if all then ginf else a0,
      if memZ m milp then [e0] else [e0; ENum a1]).

(** ** export_results.py:126-209 *)
(** np.argmin: first minimum, a nan counts as minimum. *)
Fixpoint argmin_from (best : gapv) (bi i : nat) (l : list gapv) : nat :=
  match best with
  | None => bi
  | Some b =>
      match l with
      | [] => bi
      | None :: _ => i
      | Some a :: l' => if ext_ltb a b then argmin_from (Some a) i (S i) l' else argmin_from best bi (S i) l'
      end
  end.
Definition argmin (l : list gapv) : res nat :=
  match l with [] => Err ValueError | a :: l' => Ok (argmin_from a 0 1 l') end.
(** 177-184 *)
Definition best_method (m_time m_gap : list gapv) (nb_solved : list nat) : res nat :=
  do a <- argmin m_time ;;
  if gfinite (nth a m_time None) then Ok a
  else
    let mx := fold_left Nat.max nb_solved 0 in
    let valid := filter (fun i => nth i nb_solved 0 =? mx) (seq 0 (length nb_solved)) in
    do k <- argmin (map (fun i => nth i m_gap None) valid) ;;
    geti valid k.
(** 185-194; a method beyond the fifth leaves [ind] undefined. *)
Definition column_of (m : nat) : res nat :=
  match m with 0 => Ok 3 | 1 => Ok 4 | 2 => Ok 5 | 3 => Ok 7 | 4 => Ok 9 | _ => Err NameError end.
Definition bold_at (ind : nat) (row : list entry) : res (list entry) :=
  do e <- geti row ind ;; Ok (upd ind (EBold e) row).

Section Tables.
  (** experiment_dict (28-40): the row of a file, None for the empty list. *)
  Variable exp : Z -> string -> Z -> nat -> Q -> Z -> option row_t.
  Variable instances : list string.
  Variable scenarios : list Z.
  Variable epsilons : list Q.
  Variable nb_ids : nat.
  Variables methods milp part : list Z.
  Variable required : Q.

  (** 155-157: the rows of one method; None when some file is missing. *)
  Definition experiment_rows (c : Z) (inst : string) (sc : Z) (eps : Q) (m : Z) : option (list row_t) :=
    fold_right (fun j acc => match exp c inst sc j eps m, acc with Some r, Some l => Some (r :: l) | _, _ => None end)
      (Some []) (seq 1 nb_ids).
  (** 153-175: time, solved, gap, entries of one method. *)
  Definition method_cells (c : Z) (inst : string) (sc : Z) (eps : Q) (m : Z) : res (gapv * nat * gapv * list entry) :=
    match experiment_rows c inst sc eps m with
    | Some rows => format_method rows m nb_ids required milp part
    | None => Ok (ginf, 0, ginf, if memZ m milp then [EDash] else [ENum None; ENum None])
    end.
  (** 147-195: one row of the table. *)
  Definition table_row (c : Z) (info : list entry) (inst : string) (sc : Z) (eps : Q) : res (list entry) :=
    do cells <- rmap (method_cells c inst sc eps) methods ;;
    do b <- best_method (map (fun x => fst (fst (fst x))) cells) (map (fun x => snd (fst x)) cells) (map (fun x => snd (fst (fst x))) cells) ;;
    do ind <- column_of b ;;
    bold_at ind (info ++ flat_map snd cells).

  (** 128-195.  The state of the loops: summary_tables, first_time_instance, first_time_epsilon. *)
  Fixpoint scen_loop (c : Z) (i e : nat) (inst : string) (eps : Q) (l : list (nat * Z)) (st : list (list entry) * bool * bool)
      : res (list (list entry) * bool * bool) :=
    match l with
    | [] => Ok st
    | (s, sc) :: l' =>
        let '(tab, fi, fe) := st in
        let counter := s + e * length scenarios + i * length scenarios * length epsilons in
        do row <- table_row c [EInst (if fi then inst else EmptyString); EEps (if fe then Some eps else None); EScen sc] inst sc eps ;;
        if counter <? length tab
        then scen_loop c i e inst eps l' (upd counter row tab, false, false)
        else Err IndexError
    end.
  Definition enumerate {A} (l : list A) : list (nat * A) := combine (seq 0 (length l)) l.
  Fixpoint eps_loop (c : Z) (i : nat) (inst : string) (l : list (nat * Q)) (st : list (list entry) * bool)
      : res (list (list entry) * bool) :=
    match l with
    | [] => Ok st
    | (e, eps) :: l' =>
        let '(tab, fi) := st in
        do (tab', fi', _) <- scen_loop c i e inst eps (enumerate scenarios) (tab, fi, true) ;;
        eps_loop c i inst l' (tab', fi')
    end.
  Fixpoint inst_loop (c : Z) (l : list (nat * string)) (tab : list (list entry)) : res (list (list entry)) :=
    match l with
    | [] => Ok tab
    | (i, inst) :: l' =>
        do (tab', _) <- eps_loop c i inst (enumerate epsilons) (tab, true) ;;
        inst_loop c l' tab'
    end.
  Definition summary_table (c : Z) : res (list (list entry)) :=
    inst_loop c (enumerate instances) (repeat [] (length instances * length epsilons * length scenarios)).
  (** 197-209: l[off*i : off*(1+i)] *)
  Definition slice {A} (a b : nat) (l : list A) : list A := firstn (b - a) (skipn a l).
  Definition instance_table (c : Z) (i : nat) : res (list (list entry)) :=
    do tab <- summary_table c ;;
    let off := length scenarios * length epsilons in
    Ok (slice (off * i) (off * (1 + i)) tab).

  (** ** export_results.py:42-123: big M times *)
  Fixpoint time_sum (l : list (option row_t)) (acc : gapv) : res gapv :=
    match l with
    | [] => Ok acc
    | None :: l' => time_sum l' ginf
    | Some r :: l' => do v <- row_at r 10 ;; time_sum l' (gadd acc v)
    end.
  Definition mean_time (l : list (option row_t)) (n : nat) : res entry :=
    do t <- time_sum l (finite 0) ;;
    do a <- gdiv t n ;;
    Ok (match a with Some PInf => EDash | _ => ETime (fixed 2 a) end).
  (** rows of one instance, one number of scenarios and one type of variables *)
  Definition time_rows (c : Z) (inst : string) (sc : Z) (m : Z) : list (option row_t) :=
    flat_map (fun j => map (fun eps => exp c inst sc j eps m) epsilons) (seq 1 nb_ids).
  Definition time_row (fi : bool) (inst : string) (sc : Z) : res (list entry) :=
    do song <- mean_time (time_rows 1 inst sc 1 ++ time_rows 0 inst sc 1) (nb_ids * length epsilons * 2) ;;
    do bel1 <- mean_time (time_rows 1 inst sc 2) (nb_ids * length epsilons) ;;
    do bel0 <- mean_time (time_rows 0 inst sc 2) (nb_ids * length epsilons) ;;
    Ok [EInst (if fi then inst else EmptyString); EScen sc; song; bel1; bel0].
  Fixpoint time_scen_loop (i : nat) (inst : string) (l : list (nat * Z)) (tab : list (list entry)) (fi : bool) : res (list (list entry)) :=
    match l with
    | [] => Ok tab
    | (s, sc) :: l' =>
        let counter := s + i * length scenarios in
        do row <- time_row fi inst sc ;;
        if counter <? length tab then time_scen_loop i inst l' (upd counter row tab) false else Err IndexError
    end.
  Fixpoint time_inst_loop (l : list (nat * string)) (tab : list (list entry)) : res (list (list entry)) :=
    match l with
    | [] => Ok tab
    | (i, inst) :: l' =>
        do tab' <- time_scen_loop i inst (enumerate scenarios) tab true ;;
        time_inst_loop l' tab'
    end.
  Definition time_summary : res (list (list entry)) :=
    time_inst_loop (enumerate instances) (repeat [] (length instances * length scenarios)).
  Definition instance_times (i : nat) : res (list (list entry)) :=
    do tab <- time_summary ;;
    Ok (slice (length scenarios * i) (length scenarios * (1 + i)) tab).
End Tables.
