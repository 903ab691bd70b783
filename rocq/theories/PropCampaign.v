(** The shipped experiments: generate-all-instances.sh, run_all_experiments.sh, main.py, export_results.py (Campaign.v, specification in
    CampaignSpec.v). *)
From Coq Require Import Ascii String.
From Verif Require Import Base BaseFacts Spec Instance OptModels Bounds Refine CostRefine Merge Violations BigM Adaptive AdaptiveSpec
  Milp Report Main NameFacts Export ExportFacts.
From Verif Require Text.
From Verif Require Import ResultText ResultSpec ResultRows ResultEx Campaign CampaignSpec CampaignFacts CampaignExport CampaignEx.
Local Open Scope string_scope.
Local Open Scope list_scope.
Local Open Scope nat_scope.

(** ** C83 *)

(** The script runs main.py for every combination of its lists, and for each one once. *)
Theorem C83_commands : forall files scenarios ids conts epsilons methods,
  (forall c, In c (commands files scenarios ids conts epsilons methods) <->
     In (cm_file c) files /\ In (cm_scen c) scenarios /\ 1 <= cm_id c <= ids /\ In (cm_cont c) conts /\ In (cm_eps c) epsilons /\ In (cm_method c) methods) /\
  (NoDup files -> NoDup scenarios -> NoDup conts -> NoDup epsilons -> NoDup methods -> NoDup (commands files scenarios ids conts epsilons methods)).
Proof. exact (fun f s i c e m => conj (commands_in f s i c e m) (commands_nodup f s i c e m)). Qed.
Print Assumptions C83_commands.
Theorem C83_shipped_once : NoDup shipped /\ List.length shipped = 960.
Proof. exact shipped_once. Qed.
Print Assumptions C83_shipped_once.

(** The generator writes 160 instance files, none of them twice, and every file that the experiments read is one of them. *)
Theorem C83_generated : NoDup (generated orlib_sizes orlib_scenarios orlib_copies) /\ List.length (generated orlib_sizes orlib_scenarios orlib_copies) = 160 /\
  forall c, In c shipped -> exists f, In f (generated orlib_sizes orlib_scenarios orlib_copies) /\ input_file shipped_inpath c = (shipped_inpath ++ f)%string.
Proof. exact (conj (proj1 generated_once) (conj (proj2 generated_once) shipped_generated)). Qed.
Print Assumptions C83_generated.
Theorem C83_instance_names : forall n m s j n' m' s' j', (0 <= n)%Z -> (0 <= m)%Z -> (0 <= s)%Z -> (0 <= n')%Z -> (0 <= m')%Z -> (0 <= s')%Z ->
  instance_file n m s j = instance_file n' m' s' j' -> n = n' /\ m = m' /\ s = s' /\ j = j'.
Proof. exact instance_file_inj. Qed.
Print Assumptions C83_instance_names.

(** Different runs have different result files; no file of bounds or iterations is a result file; the result file of a run is the one
    that export_results.py looks for. *)
Theorem C83_paths : forall pct inpath outdir files scenarios conts epsilons methods ids, names_fit pct inpath files scenarios conts epsilons methods ->
  forall c, In c (commands files scenarios ids conts epsilons methods) ->
  (forall c', In c' (commands files scenarios ids conts epsilons methods) ->
     (result_path pct inpath outdir c = result_path pct inpath outdir c' -> c = c') /\ iter_path pct inpath outdir c' <> result_path pct inpath outdir c) /\
  result_path pct inpath outdir c = read_name outdir (cm_file c) (cm_scen c) (Z.of_nat (cm_id c)) (pct (cm_eps c)) (cm_cont c) (cm_method c).
Proof.
  exact (fun pct inpath outdir files scenarios conts epsilons methods ids NF c H =>
    conj (fun c' H' => conj (result_path_inj pct inpath outdir files scenarios conts epsilons methods ids NF c c' H H')
                            (iter_not_result pct inpath outdir files scenarios conts epsilons methods ids NF c' c H' H))
         (result_path_read pct inpath outdir files scenarios conts epsilons methods ids NF c H)).
Qed.
Print Assumptions C83_paths.
(** The shipped lists satisfy this: 0.1*100 and 0.2*100 are 10 and 20 (C50_shipped). *)
Theorem C83_shipped_names : forall pct, (pct (1 # 10) == 10)%Q -> (pct (1 # 5) == 20)%Q ->
  names_fit pct shipped_inpath shipped_files shipped_scenarios shipped_conts shipped_epsilons shipped_methods.
Proof. exact shipped_fit. Qed.
Print Assumptions C83_shipped_names.

(** A run reads the instance file of its arguments, with their type of variables and level, and runs their method on it; beside the files
    of that method (C49, C71) it writes at most the file of the bounds. *)
Theorem C83_run : forall repr pct inpath outdir data machine trace c, pathlike inpath -> no_char "/" (cm_file c) -> (0 <= cm_scen c)%Z ->
  let run := main_py repr pct inpath outdir data machine trace c in
  let name := (cm_file c ++ "-" ++ str_of_Z (cm_scen c) ++ "-" ++ str_of_Z (Z.of_nat (cm_id c)))%string in
  match data (inpath ++ name ++ ".csv")%string with
  | Err e => run = (Err e, [])
  | Ok t => match Text.load_text t (cm_cont c =? 1)%Z (cm_eps c) with
            | Err e => run = (Err e, [])
            | Ok J => i_cont J = (cm_cont c =? 1)%Z /\ i_eps J = cm_eps c /\
                let res := main_text repr (mc_world (machine c)) J name (result_path pct inpath outdir c) (iter_path pct inpath outdir c) true
                             (mc_fuel (machine c)) (mc_rfuel (machine c)) (cm_method c) in
                exists tr, (forall x, In x tr -> fst x = iter_path pct inpath outdir c) /\ run = (fst res, tr ++ snd res)
            end
  end.
Proof. exact main_py_run. Qed.
Print Assumptions C83_run.

(** After all runs the result file of a run is the one that this run has written, when it ended normally, which takes method 1 or 2;
    otherwise it is what it was before the runs. *)
Theorem C83_files : forall repr pct inpath outdir data machine trace files scenarios conts epsilons methods ids,
  names_fit pct inpath files scenarios conts epsilons methods ->
  forall fs c, In c (commands files scenarios ids conts epsilons methods) ->
  let run := main_py repr pct inpath outdir data machine trace c in
  let after := campaign repr pct inpath outdir data machine trace (commands files scenarios ids conts epsilons methods) fs in
  (fst run = Ok tt /\ (cm_method c = 1%Z \/ cm_method c = 2%Z) /\
     exists tr t, snd run = tr ++ [(result_path pct inpath outdir c, t)] /\ after (result_path pct inpath outdir c) = Some t) \/
  (fst run <> Ok tt /\ after (result_path pct inpath outdir c) = fs (result_path pct inpath outdir c)).
Proof. exact campaign_outcome. Qed.
Print Assumptions C83_files.

(** From a directory without results, export_results.py writes the tables of the rows of the runs. *)
Theorem C83_export : forall repr pct inpath outdir savedir data machine trace files scenarios conts epsilons methods milp part ids required,
  names_fit pct inpath files scenarios conts epsilons methods ->
  let cs := commands files scenarios ids conts epsilons methods in
  (forall c J, In c cs -> load_command inpath data c = Ok J -> time_printed repr (mc_world (machine c)) J (mc_rfuel (machine c))) ->
  (forall g g', same_real g g' -> repr g = repr g') ->
  (forall e e', (e == e')%Q -> Qtrunc (pct e) = Qtrunc (pct e')) ->
  forall fs, (forall c, In c cs -> fs (result_path pct inpath outdir c) = None) ->
  export_text repr pct outdir savedir files scenarios epsilons ids methods milp part conts required
    (campaign repr pct inpath outdir data machine trace cs fs) =
  export_tables repr savedir files scenarios epsilons ids methods milp part conts required (run_rows pct inpath outdir data machine cs).
Proof. exact campaign_export. Qed.
Print Assumptions C83_export.

(** With the four shipped methods this ends normally and writes one table of times and one table of results for each type of variables. *)
Theorem C83_export_ends : forall repr pct inpath outdir savedir data machine files scenarios conts epsilons methods milp part ids required,
  methods = [1; 2; 3; 4]%Z -> milp = [1; 2]%Z -> 0 < ids -> epsilons <> [] -> exists out,
  export_tables repr savedir files scenarios epsilons ids methods milp part conts required
    (run_rows pct inpath outdir data machine (commands files scenarios ids conts epsilons methods)) = (Ok tt, out) /\
  map fst out = map (fun f => (savedir ++ f ++ "-big-m-times.csv")%string) files ++
                flat_map (fun c => map (fun f => (savedir ++ f ++ "-" ++ str_of_Z c ++ "-result-table.csv")%string) files) conts.
Proof. exact campaign_ends. Qed.
Print Assumptions C83_export_ends.

(** The tables contain no result of the adaptive methods: in every row the four cells of methods 3 and 4 are nan, and the best method
    is method 1 or method 2, whatever the computer does. *)
Theorem C83_adaptive_results_refuted : forall pct inpath outdir data machine files scenarios conts epsilons methods milp part ids required,
  methods = [1; 2; 3; 4]%Z -> milp = [1; 2]%Z -> 0 < ids ->
  forall c i, i < List.length files -> exists tab,
  instance_table (run_rows pct inpath outdir data machine (commands files scenarios ids conts epsilons methods)) files scenarios epsilons ids methods milp part required c i = Ok tab /\
  List.length tab = List.length epsilons * List.length scenarios /\
  forall e s, e < List.length epsilons -> s < List.length scenarios -> adaptive_empty (nth (s + e * List.length scenarios) tab []).
Proof. exact campaign_table. Qed.
Print Assumptions C83_adaptive_results_refuted.

(** Two variables and three scenarios: the runs, the files after the runs, the exported files; the assumptions above hold. *)
Example C83_example :
  map (fun c => fst (cx_run c)) cx_cs = [Ok tt; Ok tt; Err TypeError; Err TypeError; Err AttributeError; Err AttributeError; Err TypeError; Err AttributeError] /\
  map (fun p => cx_show (cx_after p)) ["out/ccmk-2-1-3-1-50-0-1.csv"; "out/ccmk-2-1-3-1-50-0-1-iter.csv"; "out/ccmk-2-1-3-1-50-1-2.csv"; "out/ccmk-2-1-3-1-50-0-3.csv"] =
    [Some ("ccmk-2-1-3-1,2,1,3,0,0.500,3600.000,0.010,1,0,0.0,0.000,5.000,5.000,0.000" ++ crlf)%string; Some "0.5,5.0,5.0"; None; None] /\
  cx_export = (Ok tt,
    [("res/ccmk-2-1-big-m-times.csv", ("\textsf{ccmk-2-1},3,-,-,0.00s" ++ crlf)%string);
     ("res/ccmk-2-1-0-result-table.csv", ("\textsf{ccmk-2-1},0.5,3,\textbf{0.00s},0.00s,nan,nan,nan,nan" ++ crlf)%string);
     ("res/ccmk-2-1-1-result-table.csv", ("\textsf{ccmk-2-1},0.5,3,\textbf{-},-,nan,nan,nan,nan" ++ crlf)%string)]).
Proof. vm_compute. auto. Qed.
Example C83_assumptions : names_fit cx_pct "in/" ["ccmk-2-1"] [3]%Z [0; 1]%Z [1 # 2]%Q [1; 2; 3; 4]%Z /\
  (forall c J, In c cx_cs -> load_command "in/" cx_data c = Ok J -> time_printed ex_repr (mc_world (cx_machine c)) J (mc_rfuel (cx_machine c))) /\
  (forall g g', same_real g g' -> ex_repr g = ex_repr g').
Proof. exact (conj cx_fit (conj cx_printed cx_repr)). Qed.
