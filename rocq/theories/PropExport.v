(** Properties of the exported tables: C50 (reading back), C51, C52, C58. *)
From Coq Require Import String Ascii.
From Verif Require Import Base BaseFacts Spec Instance OptModels Bounds Refine CostRefine Merge Violations BigM Adaptive AdaptiveSpec
  Milp AdaptiveEx AdaptiveEx2 MilpEx Report Main ReportFacts NameFacts Export ExportFacts PipelineFacts ExportEx.
Local Open Scope string_scope.
Local Open Scope nat_scope.

(** ** C50 *)
(** The row written by main.py (method 1 or 2) is read by export_results.py iff rounding and truncation of 100*epsilon agree. *)
Theorem C50_read_back : forall w I name path fuel rfuel METHOD out dir inpath i sn j pct, METHOD = 1%Z \/ METHOD = 2%Z -> 0 < i_k I ->
  pathlike inpath -> no_char "/" i -> (0 <= sn)%Z -> (0 <= j)%Z -> (0 <= pct)%Q ->
  (path = out_name dir (file_name (inpath ++ (i ++ "-" ++ str_of_Z sn ++ "-" ++ str_of_Z j) ++ "." ++ "csv")) pct (i_cont I) METHOD)%string ->
  main w I name path fuel rfuel METHOD = (Ok tt, out) ->
  (Qrnd pct = Qtrunc pct -> exists row nums, out = [(path, row)] /\ read_row row = Ok (CText name, nums) /\
     read_single_experiment (files out) dir i sn j pct (if i_cont I then 1 else 0) METHOD = Ok (Some (CText name, nums))) /\
  (Qrnd pct <> Qtrunc pct -> read_single_experiment (files out) dir i sn j pct (if i_cont I then 1 else 0) METHOD = Ok None).
Proof. exact main_read_back. Qed.
Print Assumptions C50_read_back.

(** ** C51 *)
(** All files present, rows of at least six numbers.  [field i r]: i-th number from the end.  [is_mean]: arithmetic mean; nan if
    some number is nan; inf if some number is inf. *)
Theorem C51_format_method : forall (results : list row_t) m ids req milp part, 0 < ids -> ids <= List.length results ->
  Forall (fun r : row_t => 6 <= List.length (snd r)) (firstn ids results) ->
  exists t nb g entries a0 a1, format_method results m ids req milp part = Ok (t, nb, g, entries) /\
    nb = count (solvedb req) (firstn ids results) /\
    (nb = ids -> is_mean (map (field 4) (firstn ids results)) a0 /\ t = a0 /\ g = ginf /\ hd EDash entries = ETime (fixed 2 a0)) /\
    (nb <> ids -> is_mean (map (field 1) (firstn ids results)) a0 /\ t = ginf /\ g = a0 /\ hd EDash entries = EGap (fixed 2 a0) nb) /\
    tl entries = (if memZ m milp then [] else [ENum a1]) /\
    (memZ m part = true -> is_mean (map (field 6) (firstn ids results)) a1) /\ (memZ m part = false -> exists v, a1 = finite v /\ (v == 0)%Q).
Proof. exact format_method_spec. Qed.
Print Assumptions C51_format_method.
Theorem C51_errors : forall results m ids req milp part,
  (List.length results < ids -> format_method results m ids req milp part = Err IndexError) /\
  (ids = 0 -> format_method results m ids req milp part = Err ZeroDivisionError).
Proof. exact format_method_errors. Qed.
Print Assumptions C51_errors.

(** A row written by main.py for method 1 or 2 counts as solved (REQUIRED_GAP = 0.01 percent) iff the true gap is at most 1.05e-4. *)
Theorem C51_solved_iff : forall w I name path fuel rfuel METHOD out, METHOD = 1%Z \/ METHOD = 2%Z -> 0 < i_k I -> main w I name path fuel rfuel METHOD = (Ok tt, out) ->
  exists row nums bt s v u, out = [(path, row)] /\ milp_run w I (cfgM rfuel) true (if (METHOD =? 1)%Z then Song else Belotti) = (Ok (Some bt), s) /\
    a_vLB s = Fin v /\ a_vUB s = Fin u /\ ~ (v == 0)%Q /\ read_row row = Ok (CText name, nums) /\ List.length nums = 14 /\
    good_row (CText name, nums) /\ time_field (CText name, nums) = finite bt /\
    field 4 (CText name, nums) = fixed 3 (finite (w_clock w (a_t s) - w_clock w 0)) /\
    field 1 (CText name, nums) = fixed 3 (times100 (finite ((u - v) / v))) /\
    (is_solved (1 # 100) (CText name, nums) = Ok true <-> ((u - v) / v <= 105 # 1000000)%Q).
Proof. exact main_milp_row. Qed.
Print Assumptions C51_solved_iff.
(** Hence a run stopped with a gap above the requested 1e-4 can count as solved. *)
Theorem C51_required_gap_refuted : (forall t m, outcome_ok 0 m (stopped t m)) /\
  exists row nums s bt v u, stopped_main = (Ok tt, [("p", row)]) /\ read_row row = Ok (CText "mk-4-1-9-1", nums) /\
  is_solved (1 # 100) (CText "mk-4-1-9-1", nums) = Ok true /\
  milp_run (ex_world exS stopped) exS (cfgM 20) true Song = (Ok bt, s) /\ a_vLB s = Fin v /\ a_vUB s = Fin u /\ (GAP < (u - v) / v)%Q.
Proof. exact (conj stopped_ok stopped_solved). Qed.
Print Assumptions C51_required_gap_refuted.

Example C51_example :
  red_cells (format_method [ex_row 10 0 3 1; ex_row 20 (1 # 100) 4 1] 3 2 (1 # 100) [1; 2]%Z [3; 4]%Z) =
    Ok (finite 15, 2, ginf, [ETime (finite 15); ENum (finite (7 # 2))]) /\
  red_cells (format_method [ex_row 10 0 3 1; ex_row 3600 (11 # 1000) 4 1] 1 2 (1 # 100) [1; 2]%Z [3; 4]%Z) =
    Ok (ginf, 1, finite (11 # 2000), [EGap (finite (1 # 100)) 1]) /\
  format_method [ex_row 10 0 3 1] 1 2 (1 # 100) [1; 2]%Z [3; 4]%Z = Err IndexError /\
  is_solved (1 # 100) (CText "", [None]) = Ok false /\ is_solved (1 # 100) (CText "", [ginf]) = Ok false.
Proof. vm_compute. auto. Qed.

(** ** C52 *)
(** The cells of a method with a missing file, and with all files. *)
Theorem C52_missing_file : forall exp nb_ids milp part required c inst sc eps m j, 1 <= j <= nb_ids -> exp c inst sc j eps m = None ->
  method_cells exp nb_ids milp part required c inst sc eps m = Ok (ginf, 0, ginf, if memZ m milp then [EDash] else [ENum None; ENum None]).
Proof. exact method_cells_missing. Qed.
Print Assumptions C52_missing_file.
Theorem C52_all_files : forall exp nb_ids milp part required c inst sc eps m rows,
  map (fun j => exp c inst sc j eps m) (seq 1 nb_ids) = map Some rows ->
  method_cells exp nb_ids milp part required c inst sc eps m = format_method rows m nb_ids required milp part.
Proof. exact method_cells_present. Qed.
Print Assumptions C52_all_files.

(** The chosen method: first least time when some time is finite; when all are infinite, most solved, then first least gap. *)
Theorem C52_best_method : forall T G N, T <> [] -> List.length G = List.length T -> List.length N = List.length T ->
  Forall (fun a => gfinite a = true \/ a = ginf) T -> ~ In None G -> exists b, best_method T G N = Ok b /\ best_spec T G N b.
Proof. exact best_method_spec. Qed.
Print Assumptions C52_best_method.

(** The table of one instance: exactly the rows of its epsilons and numbers of scenarios, in order; in each row the first cell of
    the best method is highlighted and nothing else.  At most five methods, of which the first two are MILP methods. *)
Theorem C52_table : forall exp instances scenarios epsilons nb_ids methods milp part required, 0 < nb_ids ->
  (forall c i s j e m r, exp c i s j e m = Some r -> good_row r) -> methods <> [] -> List.length methods <= 5 ->
  (forall i, i < List.length methods -> memZ (nth i methods 0%Z) milp = (i <? 2)) ->
  forall c i, i < List.length instances -> exists tab,
    instance_table exp instances scenarios epsilons nb_ids methods milp part required c i = Ok tab /\
    List.length tab = List.length epsilons * List.length scenarios /\
    forall e s, e < List.length epsilons -> s < List.length scenarios ->
      row_spec exp nb_ids methods milp part required c
        [EInst (if (e =? 0) && (s =? 0) then nth i instances EmptyString else EmptyString);
         EEps (if s =? 0 then Some (nth e epsilons 0%Q) else None); EScen (nth s scenarios 0%Z)]
        (nth i instances EmptyString) (nth s scenarios 0%Z) (nth e epsilons 0%Q) (nth (s + e * List.length scenarios) tab []).
Proof. exact exported_table. Qed.
Print Assumptions C52_table.

(** No experiment overwrites another one. *)
Theorem C52_no_overwrite : forall nS nE i e s i' e' s', e < nE -> s < nS -> e' < nE -> s' < nS ->
  s + e * nS + i * nS * nE = s' + e' * nS + i' * nS * nE -> i = i' /\ e = e' /\ s = s'.
Proof. exact place_inj. Qed.
Print Assumptions C52_no_overwrite.

Example C52_example :
  ex_table 0 = Ok [[EInst "a"; EEps (Some (1 # 10)%Q); EScen 500; EBold (ETime (finite (5 # 2))); EGap (finite (5 # 2)) 1;
                    ETime (finite (9 # 2)); ENum (finite 7); ETime (finite (11 # 2)); ENum (finite 7)];
                   [EInst ""; EEps None; EScen 1000; EBold (ETime (finite (5 # 2))); EGap (finite (5 # 2)) 1;
                    ETime (finite (9 # 2)); ENum (finite 7); ETime (finite (11 # 2)); ENum (finite 7)]] /\
  ex_table 1 = Ok [[EInst "b"; EEps (Some (1 # 10)%Q); EScen 500; EBold EDash; EDash; ENum None; ENum None; ENum None; ENum None];
                   [EInst ""; EEps None; EScen 1000; EGap (finite 9) 0; EDash; ENum None; ENum None; EBold (EGap (finite 6) 0); ENum (finite 3)]] /\
  (forall c i s j e m r, ex_exp c i s j e m = Some r -> good_row r) /\
  (* a nan among the times hides the finite ones *)
  best_method [None; finite 1] [finite 3; finite 0] [1; 0] = Ok 0.
Proof. split; [vm_compute; reflexivity|]. split; [vm_compute; reflexivity|]. split; [exact ex_good|vm_compute; reflexivity]. Qed.

(** ** C58 *)
(** Table of big-M times: song over both types of variables, belotti for continuous and for binary variables.  An entry is "-" when a
    file is missing and the mean otherwise. *)
Theorem C58_times : forall exp instances scenarios epsilons nb_ids, 0 < nb_ids -> epsilons <> [] ->
  (forall c i s j e m r, exp c i s j e m = Some r -> 10 <= List.length (snd r) /\ gfinite (time_field r) = true) ->
  forall i, i < List.length instances -> exists tab, instance_times exp instances scenarios epsilons nb_ids i = Ok tab /\
    List.length tab = List.length scenarios /\
    forall s, s < List.length scenarios -> let inst := nth i instances EmptyString in let sc := nth s scenarios 0%Z in
      exists song bel1 bel0, nth s tab [] = [EInst (if s =? 0 then inst else EmptyString); EScen sc; song; bel1; bel0] /\
        time_entry (all_files exp epsilons nb_ids 1 inst sc 1 ++ all_files exp epsilons nb_ids 0 inst sc 1) song /\
        time_entry (all_files exp epsilons nb_ids 1 inst sc 2) bel1 /\ time_entry (all_files exp epsilons nb_ids 0 inst sc 2) bel0.
Proof. exact exported_times. Qed.
Print Assumptions C58_times.

Example C58_example :
  ex_times 0 = Ok [[EInst "a"; EScen 500; ETime (finite 2); ETime (finite (5 # 2)); ETime (finite (3 # 2))];
                   [EInst ""; EScen 1000; ETime (finite 2); ETime (finite (5 # 2)); ETime (finite (3 # 2))]] /\
  ex_times 1 = Ok [[EInst "b"; EScen 500; EDash; EDash; EDash]; [EInst ""; EScen 1000; ETime (finite (1 # 2)); EDash; EDash]].
Proof. vm_compute. auto. Qed.
