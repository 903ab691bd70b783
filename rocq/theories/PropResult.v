(** Result files as text (ResultText.v, specification in ResultSpec.v). *)
From Coq Require Import Ascii String.
From Verif Require Import Base BaseFacts Spec Instance OptModels Bounds Refine CostRefine Merge Violations BigM Adaptive AdaptiveSpec
  Milp MilpFacts AdaptiveEx AdaptiveEx2 MilpEx Report Main ReportFacts NameFacts Export ExportFacts PipelineFacts ReportEx ExportEx.
From Verif Require Import TextSpec ResultText ResultSpec ResultFacts ResultRows ResultTables ResultEx.
Local Open Scope string_scope.
Local Open Scope list_scope.
Local Open Scope nat_scope.

(** ** C71 *)

(** float() accepts exactly the decimal notations and the names of the infinities and of nan, and gives their value. *)
Theorem C71_float : forall s g, denotes s g <-> exists g', to_real s = Ok g' /\ same_real g' g.
Proof. exact to_real_iff. Qed.
Print Assumptions C71_float.
Theorem C71_not_a_float : forall s e, to_real s = Err e -> e = ValueError /\ forall g, ~ real_text s g.
Proof. exact to_real_error. Qed.
Print Assumptions C71_not_a_float.

(** Formatting with d decimals: nearest number with d decimals, half to even; read back as the rounded number. *)
Theorem C71_shown : forall d g, shown d g (show_fixed d g).
Proof. exact show_fixed_shown. Qed.
Print Assumptions C71_shown.
Theorem C71_shown_read : forall d g, exists v, to_real (show_fixed d g) = Ok v /\ same_real v (fixed d g).
Proof. exact show_fixed_real. Qed.
Print Assumptions C71_shown_read.

(** csv.writer writes a record of the given fields; read_table reads the first record, whatever follows. *)
Theorem C71_written : forall fs, record_text fs (csv_row fs).
Proof. exact csv_row_record. Qed.
Print Assumptions C71_written.
Theorem C71_record : forall fs t rest, record_text fs t -> read_table (t ++ rest) = Ok (map universal fs).
Proof. exact read_table_record. Qed.
Print Assumptions C71_record.
Theorem C71_newlines : forall t u, one_newline t u -> universal t = u.
Proof. exact universal_spec. Qed.
Print Assumptions C71_newlines.
Theorem C71_read_written : forall fs rest, Forall no_cr fs -> read_table (csv_row fs ++ rest) = Ok fs.
Proof. exact no_cr_read. Qed.
Print Assumptions C71_read_written.
(** With carriage returns in a field it is false: files are read in text mode. *)
Theorem C71_read_written_refuted : exists fs, read_table (csv_row fs) <> Ok fs.
Proof. exact cr_field. Qed.
Print Assumptions C71_read_written_refuted.
Theorem C71_unambiguous : forall rows rows' t, Forall (Forall no_cr) rows -> Forall (Forall no_cr) rows' ->
  records_text rows t -> records_text rows' t -> rows = rows'.
Proof. exact records_unique. Qed.
Print Assumptions C71_unambiguous.

Example C71_record_example :
  str (csv_row [chars "a,b"; chars ("say " ++ dq); chars ""]) = (dq ++ "a,b" ++ dq ++ "," ++ dq ++ "say " ++ dq ++ dq ++ dq ++ "," ++ crlf)%string /\
  str (csv_row [[]]) = (dq ++ dq ++ crlf)%string /\
  (str (show_fixed 3 (finite (-1 # 10000))), str (show_fixed 0 (finite (5 # 2))), str (show_fixed 2 (finite (1 # 8)))) = ("-0.000", "2", "0.12") /\
  read_result (chars "") = Err UnboundLocalError /\ read_result (chars crlf) = Err IndexError /\
  red_row (read_result (chars ("a, -1.5e1 ,Inf,nan" ++ crlf ++ "more"))) = Ok ("a", [finite (-15); ginf; None]) /\
  red_row (read_result (chars ("a,1.2.3" ++ crlf))) = Err ValueError.
Proof. vm_compute. repeat split. Qed.

(** The file written by a solver holds the row of C48, C49: [holds row t] says that reading t, whatever follows, gives the name
    (with unified line ends) and the numbers of the row.  [repr_ok]: the repr of the big-M time denotes it. *)
Theorem C71_milp_file : forall repr name I cf um m bt final s, (forall t, bt = Some t -> repr_ok repr (finite t)) ->
  match milp_row name I cf um m bt final s, milp_file repr name I cf um m bt final s with
  | Ok row, Ok t => holds row t /\ exists nums, read_row row = Ok (CText name, nums)
  | Err e, Err e' => e = e'
  | _, _ => False
  end.
Proof. exact milp_file_rel. Qed.
Print Assumptions C71_milp_file.
Theorem C71_adaptive_file : forall name I cf split init proj solved started final s,
  match adaptive_row name I cf split init proj solved started final s, adaptive_file name I cf split init proj solved started final s with
  | Ok row, Ok t => holds row t /\ exists nums, read_row row = Ok (CText name, nums)
  | Err e, Err e' => e = e'
  | _, _ => False
  end.
Proof. exact adaptive_file_rel. Qed.
Print Assumptions C71_adaptive_file.
Theorem C71_main : forall repr w I name path ipath info fuel rfuel METHOD, time_printed repr w I rfuel ->
  let '(r, out) := main w I name path fuel rfuel METHOD in
  let '(r', out') := main_text repr w I name path ipath info fuel rfuel METHOD in
  r' = r /\ Forall2 same_file out out'.
Proof. exact main_text_rel. Qed.
Print Assumptions C71_main.
(** The text written by main.py (method 1 or 2) is read by export_results.py as the numbers of the row. *)
Theorem C71_read_back : forall repr w I name path ipath info fuel rfuel METHOD out dir inpath i sn j pct, METHOD = 1%Z \/ METHOD = 2%Z ->
  0 < i_k I -> time_printed repr w I rfuel -> pathlike inpath -> no_char "/" i -> (0 <= sn)%Z -> (0 <= j)%Z -> (0 <= pct)%Q ->
  (path = out_name dir (file_name (inpath ++ (i ++ "-" ++ str_of_Z sn ++ "-" ++ str_of_Z j) ++ "." ++ "csv")) pct (i_cont I) METHOD)%string ->
  Qrnd pct = Qtrunc pct ->
  main_text repr w I name path ipath info fuel rfuel METHOD = (Ok tt, out) ->
  exists row nums nums' t, main w I name path fuel rfuel METHOD = (Ok tt, [(path, row)]) /\ out = [(path, t)] /\
    read_row row = Ok (CText name, nums) /\ same_numbers nums' nums /\
    read_experiment_text (text_files out) dir i sn j pct (if i_cont I then 1 else 0) METHOD = Ok (Some (universal (chars name), nums')).
Proof. exact text_read_back. Qed.
Print Assumptions C71_read_back.

Example C71_file_example :
  ex_milp_file "song" = Ok ("mk-4-1-9-1,4,1,9,0,0.333,100.000,0.010,1,0,0.0,12.500,14.000,14.000,0.000" ++ crlf)%string.
Proof. vm_compute. reflexivity. Qed.

(** The file of the iterations: one record for each entry of the log, with the numbers rounded to three decimals; iterations do not
    decrease, the lower bound (negated) does not increase, the upper bound (negated) does not decrease by more than 0.001. *)
Theorem C71_iteration_file : forall s, exists rows, records_text rows (iteration_file s) /\ Forall2 iteration_shown (a_log s) rows.
Proof. exact iteration_rows. Qed.
Print Assumptions C71_iteration_file.
Theorem C71_iteration_monotone : forall w I cf fuel r s, run w I cf fuel = (r, s) -> forall rows, records_text rows (iteration_file s) ->
  Forall (Forall no_cr) rows -> forall l1 a b l2, rows = l1 ++ a :: b :: l2 ->
  (forall x y, denotes (nth 0 a []) x -> denotes (nth 0 b []) y -> gap_leb x y = true) /\
  (forall x y, denotes (nth 2 a []) x -> denotes (nth 2 b []) y -> gap_leb y x = true) /\
  (forall x y, denotes (nth 3 a []) x -> denotes (nth 3 b []) y -> gap_leb x (gap_plus y (1 # 1000)) = true).
Proof. exact iteration_monotone. Qed.
Print Assumptions C71_iteration_monotone.

Example C71_iteration_example :
  ex_iterations = ("1,0.000,-5.000,-9.000,80.000,2" ++ crlf ++ "1,0.000,-5.000,-9.000,79.996,2" ++ crlf ++ "2,0.000,-5.000,-5.000,-0.002,3" ++ crlf)%string.
Proof. vm_compute. reflexivity. Qed.

(** Exported tables: the records of the entries, and without special characters the entries separated by commas. *)
Theorem C71_table : forall repr tab, records_text (map (map (entry_text repr)) tab) (table_file repr tab).
Proof. exact table_records. Qed.
Print Assumptions C71_table.
Theorem C71_table_line : forall repr row, Forall (entry_ok repr) row -> 2 <= List.length row ->
  exists line, line_text (map (entry_text repr) row) line /\ table_file repr [row] = line ++ [ascii_of_nat 13; ascii_of_nat 10].
Proof. exact table_line. Qed.
Print Assumptions C71_table_line.
(** The script reads the texts and writes the tables of the rows that they hold (C51, C52, C58); one unreadable file among those of the
    lists, and nothing is written. *)
Theorem C71_export : forall repr, (forall g g', same_real g g' -> repr g = repr g') ->
  forall pct indir outdir instances scenarios epsilons nb_ids methods milp part conts required
    (fs : string -> option text) (fsr : string -> option (list cell)),
  (forall p, match fs p, fsr p with Some t, Some row => holds row t | None, None => True | _, _ => False end) ->
  (forall e e', (e == e')%Q -> Qtrunc (pct e) = Qtrunc (pct e')) ->
  export_text repr pct indir outdir instances scenarios epsilons nb_ids methods milp part conts required fs =
  export_tables repr outdir instances scenarios epsilons nb_ids methods milp part conts required
    (listed_row pct indir instances scenarios epsilons nb_ids methods conts fsr).
Proof. exact export_text_rows. Qed.
Print Assumptions C71_export.
Theorem C71_export_keys : forall instances scenarios epsilons nb_ids methods conts c i s j e m, In c conts -> In i instances ->
  In s scenarios -> 1 <= j <= nb_ids -> In e epsilons -> In m methods ->
  existsb (key_eqb (c, i, s, j, e, m)) (dict_keys instances scenarios epsilons nb_ids methods conts) = true.
Proof. exact listed_key. Qed.
Print Assumptions C71_export_keys.
Theorem C71_export_error : forall repr pct indir outdir instances scenarios epsilons nb_ids methods milp part conts required fs c i s j e m x,
  In c conts -> In i instances -> In s scenarios -> 1 <= j <= nb_ids -> In e epsilons -> In m methods ->
  read_experiment_text fs indir i s (Z.of_nat j) (pct e) c m = Err x ->
  exists x', export_text repr pct indir outdir instances scenarios epsilons nb_ids methods milp part conts required fs = (Err x', []).
Proof. exact export_text_error. Qed.
Print Assumptions C71_export_error.

Example C71_export_example :
  ex_export ex_fs = (Ok tt,
    [("out/ccmknap-big-m-times.csv", ("\textsf{mk},9,0.50s,-,0.50s" ++ crlf)%string);
     ("out/ccmknap-0-result-table.csv", ("\textsf{mk},0.1,9,2.50s,\textbf{1.25s}" ++ crlf)%string);
     ("out/ccmknap-1-result-table.csv", ("\textsf{mk},0.1,9,\textbf{7.50\%(0)},-" ++ crlf)%string)]) /\
  ex_export (fun p => if String.eqb p "in/ccmknap-9-1-10-1-2.csv" then Some [] else ex_fs p) = (Err UnboundLocalError, []).
Proof. vm_compute. auto. Qed.

(** The file of the bounds found by the solver. *)
Theorem C71_bounds : forall repr data,
  Forall (fun '(t, o, b) => repr_ok repr (finite t) /\ repr_ok repr (finite o) /\ repr_ok repr (finite b)) data ->
  exists rows, records_text rows (bounds_file repr data) /\ Forall (Forall no_cr) rows /\
    Forall2 (fun '(t, o, b) row => Forall2 denotes row [finite t; finite o; finite b]) data rows.
Proof. exact bounds_rows. Qed.
Print Assumptions C71_bounds.

Example C71_bounds_example : str (bounds_file ex_repr [(0, 3 # 2, 7); (1 # 2, 5, 5)]%Q) = ("0.0,1.5,7.0" ++ crlf ++ "0.5,5.0,5.0" ++ crlf)%string.
Proof. vm_compute. reflexivity. Qed.
