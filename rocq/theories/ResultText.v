(** Result files as text: the csv writer of AdaptivePartitioner.py:338-367, MilpSolver.py:68-82,
    OptiModel.py:177-180 and format_results.py:12-15 (excel dialect, QUOTE_MINIMAL), and the csv reader
    of format_results.py:5-9, 18-31 (file opened in text mode with universal newlines).
    Simplifications: the StopIteration of an empty file is UnboundLocalError here, csv.Error is ValueError;
    repr of a float is a parameter; -0.0 and 0.0 are the same number. *)
From Coq Require Import Ascii String.
From Verif Require Import Base Spec Instance OptModels Bounds Refine CostRefine Merge Violations BigM Adaptive Milp Report Main Export.
From Verif Require Text.
Import Text (CR, LF, comma, quote, dot_char, is_digit, take_sign, strip, to_float, is_nl, lines_of, last_digits, show_nat, join,
  cstate, StartRecord, StartField, InField, InQuoted, QuoteInQuoted, EatCrnl).
Local Open Scope nat_scope.
Local Open Scope list_scope.

Notation text := (list ascii).
Definition chars (s : string) : text := list_ascii_of_string s.

(** ** Numbers *)

(** str(z) of an integer. *)
Definition show_int (z : Z) : text := (if (z <? 0)%Z then ["-"%char] else []) ++ show_nat (Z.abs z).

(** z / 10^d with d decimals, z >= 0. *)
Definition show_places (d : nat) (z : Z) : text :=
  show_nat (z / 10 ^ Z.of_nat d)%Z ++ (if d =? 0 then [] else dot_char :: last_digits d z).

(** "{:.df}".format(x): the sign of a negative number is kept, -0.0001 is written -0.000. *)
Definition show_fixed (d : nat) (g : gapv) : text :=
  match g with
  | None => chars "nan"
  | Some PInf => chars "inf"
  | Some NInf => chars "-inf"
  | Some (Fin q) => (if Qlt_bool q 0 then ["-"%char] else []) ++ show_places d (Z.abs (Qrnd (q * pow10 d)))
  end.

(** float(s), with the names of the infinities and of nan. *)
Definition lower (c : ascii) : ascii :=
  let n := nat_of_ascii c in if (65 <=? n) && (n <=? 90) then ascii_of_nat (n + 32) else c.
Definition text_eqb (a b : text) : bool := if list_eq_dec ascii_dec a b then true else false.
Definition to_real (s : text) : res gapv :=
  let '(neg, l) := take_sign (strip s) in
  let u := map lower l in
  if text_eqb u (chars "inf") || text_eqb u (chars "infinity") then Ok (Some (if neg then NInf else PInf))
  else if text_eqb u (chars "nan") then Ok None
  else do q <- to_float s ;; Ok (finite q).

(** ** csv.writer *)

Definition special (c : ascii) : bool := Ascii.eqb c comma || Ascii.eqb c quote || is_nl c.
Fixpoint double_quotes (f : text) : text :=
  match f with
  | [] => []
  | c :: f' => if Ascii.eqb c quote then quote :: quote :: double_quotes f' else c :: double_quotes f'
  end.
Definition show_field (f : text) : text :=
  if existsb special f then quote :: double_quotes f ++ [quote] else f.
(** A row made of one empty field is written "". *)
Definition csv_row (fields : list text) : text :=
  match fields with [[]] => [quote; quote] | _ => join (map show_field fields) end ++ [CR; LF].
Definition csv_rows (rows : list (list text)) : text := concat (map csv_row rows).

(** ** csv.reader *)

(** Text mode: \r\n and \r are read as \n. *)
Fixpoint universal (l : text) : text :=
  match l with
  | [] => []
  | c :: l' =>
      if Ascii.eqb c CR then
        match l' with
        | c' :: l'' => if Ascii.eqb c' LF then LF :: universal l'' else LF :: universal l'
        | [] => [LF]
        end
      else c :: universal l'
  end.

(** State of the reader; the current field and row are kept in reverse order. *)
Record sreader : Type := mkS { s_state : cstate; s_field : text; s_row : list text }.
Definition sreset : sreader := mkS StartRecord [] [].
Definition sgoto (st : cstate) (r : sreader) : sreader := mkS st (s_field r) (s_row r).
Definition spush (st : cstate) (c : ascii) (r : sreader) : sreader := mkS st (c :: s_field r) (s_row r).
Definition ssave (st : cstate) (r : sreader) : sreader := mkS st [] (rev (s_field r) :: s_row r).

Definition sstart (r : sreader) (c : ascii) : sreader :=
  if is_nl c then ssave EatCrnl r
  else if Ascii.eqb c quote then sgoto InQuoted r
  else if Ascii.eqb c comma then ssave StartField r
  else spush InField c r.

Definition sstep (r : sreader) (c : ascii) : res sreader :=
  match s_state r with
  | StartRecord => Ok (if is_nl c then sgoto EatCrnl r else sstart r c)
  | StartField => Ok (sstart r c)
  | InField =>
      Ok (if is_nl c then ssave EatCrnl r
          else if Ascii.eqb c comma then ssave StartField r
          else spush InField c r)
  | InQuoted => Ok (if Ascii.eqb c quote then sgoto QuoteInQuoted r else spush InQuoted c r)
  | QuoteInQuoted =>
      Ok (if Ascii.eqb c quote then spush InQuoted c r
          else if Ascii.eqb c comma then ssave StartField r
          else if is_nl c then ssave EatCrnl r
          else spush InField c r)
  | EatCrnl => if is_nl c then Ok r else Err ValueError
  end.

(** End of a line of the file. *)
Definition seol (r : sreader) : sreader :=
  match s_state r with
  | StartRecord | InQuoted => r
  | EatCrnl => sgoto StartRecord r
  | StartField | InField | QuoteInQuoted => ssave StartRecord r
  end.

Fixpoint sfeed (r : sreader) (l : text) : res sreader :=
  match l with
  | [] => Ok (seol r)
  | c :: l' => do r' <- sstep r c ;; sfeed r' l'
  end.

(** next(csv_reader): the next row and the lines that follow; None at the end of the file. *)
Fixpoint next_record (ls : list text) (r : sreader) : res (option (list text * list text)) :=
  match ls with
  | [] =>
      match s_state r, s_field r with
      | InQuoted, _ | _, _ :: _ => Ok (Some (rev (s_row (ssave StartRecord r)), []))
      | _, [] => Ok None
      end
  | l :: ls' =>
      do r' <- sfeed r l ;;
      match s_state r' with
      | StartRecord => Ok (Some (rev (s_row r'), ls'))
      | _ => next_record ls' r'
      end
  end.

(** format_results.py:5-9 *)
Definition read_table (t : text) : res (list text) :=
  do o <- next_record (lines_of [] (universal t)) sreset ;;
  match o with None => Err UnboundLocalError | Some (row, _) => Ok row end.

(** format_results.py:18-31.  [fs] maps a path to the text of the file. *)
Definition read_result (t : text) : res (text * list gapv) :=
  do row <- read_table t ;;
  match row with
  | [] => Err IndexError
  | n :: l => do v <- rmap to_real l ;; Ok (n, v)
  end.
Definition read_experiment_text (fs : string -> option text) (indir i : string) (s j : Z) (pct : Q) (cont m : Z)
    : res (option (text * list gapv)) :=
  match fs (read_name indir i s j pct cont m) with
  | None => Ok None
  | Some t => do r <- read_result t ;; Ok (Some r)
  end.

(** ** The result files *)

Section Files.
  Variable repr : gapv -> text.     (* repr of a float *)

  (** Solver.py:42-64 *)
  Definition instance_fields (name : string) (I : inst) : res (list text) :=
    if (i_n I =? 0) || (i_k I =? 0) then Err IndexError
    else Ok [chars name; show_int (Z.of_nat (i_n I)); show_int (Z.of_nat (i_m I)); show_int (Z.of_nat (i_k I));
             show_int (if i_cont I then 1 else 0); show_fixed 3 (finite (i_eps I))].
  Definition computation_fields (final : option Q) (s : ast) : res (list text) :=
    match final with
    | None => Err TypeError
    | Some t =>
        do g <- compute_gap (a_vUB s) (a_npU s) (a_vLB s) (a_npL s) ;;
        Ok [show_fixed 3 (finite (t - a_start s)%Q); show_fixed 3 (Some (a_vLB s));
            show_fixed 3 (Some (a_vUB s)); show_fixed 3 (times100 g)]
    end.

  (** MilpSolver.py:68-82: big_m_time is not formatted. *)
  Definition milp_fields (name : string) (I : inst) (cf : cfg) (use_big_m : bool) (m : string) (bt final : option Q) (s : ast)
      : res (list text) :=
    do details <- instance_fields name I ;;
    do comp <- computation_fields final s ;;
    match bt with
    | None => Err AttributeError
    | Some t =>
        Ok (details ++ [show_fixed 3 (finite (c_limit cf)); show_fixed 3 (finite (c_gap cf * 100)%Q);
                        show_int (if use_big_m then 1 else 0); show_int (method_code m)] ++ [repr (finite t)] ++ comp)
    end.
  Definition milp_file name I cf um m bt final s : res text :=
    do f <- milp_fields name I cf um m bt final s ;; Ok (csv_row f).

  (** AdaptivePartitioner.py:338-360 *)
  Definition details_fields (split init proj : string) : res (list text) :=
    do a <- counter_dict split ;; do b <- counter_dict init ;; do c <- counter_dict proj ;;
    Ok [show_int a; show_int b; show_int c].
  Definition adaptive_fields (name : string) (I : inst) (cf : cfg) (split init proj : string) (solved started : bool)
      (final : option Q) (s : ast) : res (list text) :=
    if negb solved then Err AttributeError
    else
      do det <- details_fields split init proj ;;
      do details <- instance_fields name I ;;
      do comp <- computation_fields final s ;;
      if negb started then Err AttributeError
      else Ok (details ++ [show_fixed 3 (finite (c_limit cf)); show_fixed 3 (finite (c_gap cf * 100)%Q);
                           show_int (if c_bigM cf then 1 else 0)] ++ det ++
               [show_int (Z.of_nat (a_iter s)); show_int (Z.of_nat (v_k (a_view s)))] ++ comp).
  Definition adaptive_file name I cf split init proj solved started final s : res text :=
    do f <- adaptive_fields name I cf split init proj solved started final s ;; Ok (csv_row f).

  (** AdaptivePartitioner.py:362-367, Informer.py:44-57 *)
  Definition iteration_fields (r : logrow) : list text :=
    [show_int (Z.of_nat (l_iter r)); show_fixed 3 (finite (l_time r)); show_fixed 3 (Some (l_nLB r));
     show_fixed 3 (Some (l_nUB r)); show_fixed 3 (times100 (l_gap r)); show_int (Z.of_nat (l_nb r))].
  Definition iteration_file (s : ast) : text := csv_rows (map iteration_fields (a_log s)).

  (** instance.replace("ccmknap", "mk") (export_results.py:53, 135); [skip] characters of an occurrence remain. *)
  Fixpoint short_name (skip : nat) (l : text) : text :=
    match l with
    | [] => []
    | c :: l' =>
        match skip with
        | S k => short_name k l'
        | 0 => if text_eqb (firstn 7 l) (chars "ccmknap") then chars "mk" ++ short_name 6 l' else c :: short_name 0 l'
        end
    end.

  (** export_results.py:51-195 and format_results.py:80-88: text of a table entry.  csv.writer writes numbers with repr;
      str of a float is its repr. *)
  Fixpoint entry_text (e : entry) : text :=
    match e with
    | EDash => chars "-"
    | ENum g => repr g
    | ETime g => show_fixed 2 g ++ chars "s"
    | EGap g n => show_fixed 2 g ++ chars "\%(" ++ show_int (Z.of_nat n) ++ chars ")"
    | EInst s => if String.eqb s EmptyString then [] else chars "\textsf{" ++ short_name 0 (chars s) ++ chars "}"
    | EEps None => []
    | EEps (Some q) => repr (finite q)
    | EScen n => show_int n
    | EBold e' => chars "\textbf{" ++ entry_text e' ++ chars "}"
    end.
  (** format_results.py:12-15 *)
  Definition table_file (tab : list (list entry)) : text := csv_rows (map (map entry_text) tab).

  (** OptiModel.py:177-180 *)
  Definition bounds_file (data : list (Q * Q * Q)) : text :=
    csv_rows (map (fun '(t, o, b) => [repr (finite t); repr (finite o); repr (finite b)]) data).
End Files.

(** ** main.py with the text of the files *)

Section MainText.
  Variable repr : gapv -> text.
  Variable w : world.
  Variable I : inst.
  Variable name : string.
  Variable path ipath : string     (* computation_output_file_name, iteration_output_file_name *).
  Variable info : bool             (* WITH_ITERATION_INFO *).
  Variable fuel rfuel : nat.

  (** main.py:76-83, 114-116.  The file of the bounds (iteration_output_file_name), written by the callback, is not part
      of the result: see bounds_file. *)
  Definition main_milp_text (m : string) : res unit * list (string * text) :=
    match milp_run w I (cfgM rfuel) true (bigm_of_string m) with
    | (Err e, _) => (Err e, [])
    | (Ok bt, s) =>
        match milp_file repr name I (cfgM rfuel) true m bt (Some (w_clock w (a_t s))) s with
        | Ok t => (Ok tt, [(path, t)])
        | Err e => (Err e, [])
        end
    end.
  (** main.py:84-112, 114-118 *)
  Definition main_adaptive_text (cf : cfg) (kws : list string) (split init : string) : res unit * list (string * text) :=
    match construct w I cf (ast0 I) with
    | (Err e, _) => (Err e, [])
    | (Ok b, s) =>
        let write (s' : ast) :=
          match adaptive_file name I cf split init "rescaled_max_violation" true (0 <? a_iter s') (Some (w_clock w (a_t s'))) s' with
          | Ok t => (Ok tt, (path, t) :: if info then [(ipath, iteration_file s')] else [])
          | Err e => (Err e, [])
          end in
        match bind_keywords solve_params 1 kws with
        | Err e => (Err e, [])
        | Ok _ =>
            match solve w I cf fuel b s with
            | (Ok _, s') => write s'
            | (Err KeyboardInterrupt, s') => write s'
            | (Err e, _) => (Err e, [])
            end
        end
    end.
  Definition main_text (METHOD : Z) : res unit * list (string * text) :=
    if (METHOD =? 1)%Z then main_milp_text "song"
    else if (METHOD =? 2)%Z then main_milp_text "belotti"
    else if (METHOD =? 3)%Z then main_adaptive_text (cfg3 rfuel) keywords3 "random" "random"
    else if (METHOD =? 4)%Z then main_adaptive_text (cfg4 rfuel) keywords4 "cost" "cost"
    else (Err NameError, []).
End MainText.

(** The file system after the run. *)
Fixpoint text_files (out : list (string * text)) (p : string) : option text :=
  match out with
  | [] => None
  | (p', t) :: out' => if String.eqb p p' then Some t else text_files out' p
  end.

(** ** export_results.py with the text of the files *)

Section ExportText.
  Variable repr : gapv -> text.
  Variable pct : Q -> Q             (* the float e*100 *).
  Variable indir outdir : string    (* path_to_read_files, path_to_save_files *).
  Variable instances : list string.
  Variable scenarios : list Z.
  Variable epsilons : list Q.
  Variable nb_ids : nat.
  Variables methods milp part conts : list Z.
  Variable required : Q.

  (** export_results.py:112-123, 197-209: write_table for each instance. *)
  Definition write_tables (suffix : string) (table : nat -> res (list (list entry))) : res (list (string * text)) :=
    rmap (fun i => do tab <- table i ;; Ok ((outdir ++ nth i instances EmptyString ++ suffix)%string, table_file repr tab))
      (seq 0 (List.length instances)).
  (** export_results.py:127-209 *)
  Fixpoint write_results (exp : Z -> string -> Z -> nat -> Q -> Z -> option row_t) (cs : list Z) : res unit * list (string * text) :=
    match cs with
    | [] => (Ok tt, [])
    | c :: cs' =>
        match write_tables ("-" ++ str_of_Z c ++ "-result-table.csv")
                (instance_table exp instances scenarios epsilons nb_ids methods milp part required c) with
        | Err e => (Err e, [])
        | Ok l => let '(r, l') := write_results exp cs' in (r, l ++ l')
        end
    end.
  (** export_results.py:42-209 *)
  Definition export_tables (exp : Z -> string -> Z -> nat -> Q -> Z -> option row_t) : res unit * list (string * text) :=
    match write_tables "-big-m-times.csv" (instance_times exp instances scenarios epsilons nb_ids) with
    | Err e => (Err e, [])
    | Ok l => let '(r, l') := write_results exp conts in (r, l ++ l')
    end.

  (** export_results.py:28-40.  experiment_dict is the list of its items. *)
  Definition dict_keys : list (Z * string * Z * nat * Q * Z) :=
    flat_map (fun c => flat_map (fun i => flat_map (fun s => flat_map (fun j => flat_map (fun e =>
      map (fun m => (c, i, s, j, e, m)) methods) epsilons) (seq 1 nb_ids)) scenarios) instances) conts.
  Definition key_eqb (a b : Z * string * Z * nat * Q * Z) : bool :=
    let '(c, i, s, j, e, m) := a in let '(c', i', s', j', e', m') := b in
    (c =? c')%Z && String.eqb i i' && (s =? s')%Z && (j =? j') && Qeq_bool e e' && (m =? m')%Z.
  Definition read_dict (fs : string -> option text) : res (list ((Z * string * Z * nat * Q * Z) * option row_t)) :=
    rmap (fun k => let '(c, i, s, j, e, m) := k in
      do r <- read_experiment_text fs indir i s (Z.of_nat j) (pct e) c m ;;
      Ok (k, match r with None => None | Some (n, v) => Some (CText (string_of_list_ascii n), v) end)) dict_keys.
  (** Simplification: a key that is not in the dictionary counts as a missing file (KeyError in Python); every key that
      the tables need is in it when conts contains 0 and 1 and methods contains 1 and 2. *)
  Fixpoint dict_get (d : list ((Z * string * Z * nat * Q * Z) * option row_t)) (k : Z * string * Z * nat * Q * Z) : option row_t :=
    match d with
    | [] => None
    | (k', r) :: d' => if key_eqb k k' then r else dict_get d' k
    end.
  Definition export_text (fs : string -> option text) : res unit * list (string * text) :=
    match read_dict fs with
    | Err e => (Err e, [])
    | Ok d => export_tables (fun c i s j e m => dict_get d (c, i, s, j, e, m))
    end.
End ExportText.
