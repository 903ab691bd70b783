(** The files of data/orlib, the instances generated from them, and the shipped experiments on these (Orlib.v, specification in OrlibSpec.v). *)
From Coq Require Import Ascii String QArith Qabs.
From Verif Require Import Base Spec Instance OptModels Bounds Refine CostRefine Merge Violations ViolTable BigM Adaptive AdaptiveSpec NearSpec Milp AgreeSpec
  Report Main Export ExportFacts ResultText Campaign CampaignSpec CampaignFacts.
From Verif Require Import Orlib OrlibData OrlibSpec OrlibRead OrlibFacts OrlibRuns OrlibEx.
From Verif Require Import ReportFacts ViolationsFacts.
From Verif Require Text ResultSpec ResultEx.
Local Open Scope nat_scope.
Local Open Scope list_scope.

(** ** C84 *)

(** The generator reads a file of the format as the numbers written in it, and what it reads from a file is written there. *)
Theorem C84_reader : forall o t, (orlib_file o t -> read_orlib t = Ok o) /\
  ((exists p, t = p ++ ["010"%char]) -> List.length (or_A o) = or_m o -> Forall (fun r => List.length r = or_n o) (or_A o) -> read_orlib t = Ok o -> orlib_file o t).
Proof. exact (fun o t => conj (orlib_read o t) (orlib_file_of o t)). Qed.
Print Assumptions C84_reader.
Example C84_small : orlib_file or_small (ResultText.chars or_string) /\ orlib_fit or_small /\ read_orlib (ResultText.chars or_string) = Ok or_small.
Proof. exact small_file. Qed.

(** The eight shipped files have the format, the sizes of their names, and numbers within the bounds of orlib_fit. *)
Theorem C84_shipped_files : forall f, f < 8 -> exists o, orlib_file o (nth f orlib_texts []) /\ orlib_fit o /\ (Z.of_nat (or_n o), Z.of_nat (or_m o)) = nth f orlib_sizes (0, 0)%Z.
Proof. exact shipped_files_fit. Qed.
Print Assumptions C84_shipped_files.

(** The generator writes the files named in C83_generated, whatever the random numbers. *)
Theorem C84_names : forall d scenarios copies, map fst (generate_all orlib_texts scenarios copies d) = generated orlib_sizes scenarios copies.
Proof. exact generated_names. Qed.
Print Assumptions C84_names.
Example C84_generated_text : generate (ResultText.chars or_string) 2 1 (fun _ => or_draws) =
  Ok [("ccmknap-3-2-2-1.csv"%string, ResultText.chars (String.concat crnl ["3,2,2"; "9.0,5.5,4.0"; "1.35,2.0,3.0"; "0.0,1.5,2.0"; "1.0,0.0,0.0"; "0.0,0.0,2.0"; "10.0,8.0"; ""]%string))] /\
  read_orlib (ResultText.chars "3 2") = Err IndexError /\ read_orlib (ResultText.chars (String.concat nl ["2 1"; "1 x"; "1 2"; "3"]%string)) = Err ValueError.
Proof. exact small_generated. Qed.

(** The instance that ChanceInstance.py reads from a generated file: objective and capacities of data/orlib to one decimal, the
    same capacities in every scenario; an item that fails takes nothing, another one its normal number of standard deviation 10% of the
    mean, cut at 0, up to the two roundings. *)
Theorem C84_entries : forall o d k cont eps, orlib_fit o -> 0 < k -> exists J, Text.load_text (orlib_text o d k) cont eps = Ok J /\
  i_n J = or_n o /\ i_m J = or_m o /\ i_k J = k /\ i_cont J = cont /\ i_eps J = eps /\
  i_c J = map (fun x => round1 (Text.dval x)) (or_c o) /\ (forall s i, s < k -> i < or_m o -> rhs J s i = round1 (Text.dval (nth i (or_b o) (0%Z, 0)))) /\
  forall s i j, s < k -> i < or_m o -> j < or_n o ->
    (dr_fails d s j = true \/ mean o i j == 0 -> entry_of J s i j == 0)%Q /\
    (dr_fails d s j = false -> Qabs (entry_of J s i j - Qmax (mean o i j * (1 + dr_normal d s i j / 10)) 0) <= 1001 # 20000)%Q.
Proof. exact generated_instance. Qed.
Print Assumptions C84_entries.
Example C84_small_entries : let J := orlib_inst or_small or_draws 2 false (1 # 2) in
  (entry_of J 0 0 0 == 14 # 10 /\ entry_of J 1 0 1 == 0 /\ entry_of J 1 0 2 == 0 /\ entry_of J 1 1 2 == 2)%Q.
Proof. exact small_entries. Qed.

(** The hypotheses of the theorems on the methods hold for every instance that the shipped experiments read. *)
Theorem C84_hypotheses : forall data d c, stored data d -> In c shipped -> exists J, load_command shipped_inpath data c = Ok J /\
  i_k J = Z.to_nat (cm_scen c) /\ i_cont J = (cm_cont c =? 1)%Z /\ i_eps J = cm_eps c /\ ready J /\
  (cm_cont c = 1%Z \/ (forall f k j, within30 (d f k j)) -> positive J).
Proof. exact shipped_loads. Qed.
Print Assumptions C84_hypotheses.
Example C84_stored : stored (lookup mid_draws) mid_draws /\ (forall f k j, within30 (mid_draws f k j)) /\ (forall c, fine (ready_machine (lookup mid_draws) c)).
Proof. exact mid_hyps. Qed.

(** With an exact solver, the result row of a run of methods 1 and 2 has the optimal value as both bounds, to three decimals, gap 0 and a
    time below an hour. *)
Theorem C84_milp : forall pct outdir data machine d c, stored data d -> In c shipped -> cm_method c = 1%Z \/ cm_method c = 2%Z -> fine (machine c) ->
  cm_cont c = 1%Z \/ (forall f k j, within30 (d f k j)) ->
  exists J v r, load_command shipped_inpath data c = Ok J /\ optimum J v /\ (0 < v)%Q /\ run_row pct shipped_inpath outdir data machine c = Some r /\ good_row r /\
    near3 v (field 3 r) /\ near3 v (field 2 r) /\ (exists g, field 1 r = finite g /\ (g == 0)%Q) /\ (exists t, near3 t (field 4 r) /\ (t < 3600)%Q).
Proof. exact shipped_result. Qed.
Print Assumptions C84_milp.

(** Hence the exported tables of the shipped experiments have times in the columns of both methods, in every row. *)
Theorem C84_tables : forall pct outdir data machine d, stored data d -> (forall f k j, within30 (d f k j)) ->
  (forall c, In c shipped -> cm_method c = 1%Z \/ cm_method c = 2%Z -> fine (machine c)) ->
  forall part required c i, In c shipped_conts -> i < List.length shipped_files -> (0 <= required)%Q ->
  exists tab, instance_table (run_rows pct shipped_inpath outdir data machine shipped) shipped_files shipped_scenarios shipped_epsilons shipped_ids shipped_methods [1; 2]%Z part required c i = Ok tab /\
    List.length tab = 8 /\
    forall e s, e < 2 -> s < 4 -> time_cell (nth 3 (nth (s + e * 4) tab []) EDash) /\ time_cell (nth 4 (nth (s + e * 4) tab []) EDash).
Proof. exact shipped_tables. Qed.
Print Assumptions C84_tables.
Theorem C84_times : forall pct outdir data machine d, stored data d -> (forall f k j, within30 (d f k j)) ->
  (forall c, In c shipped -> cm_method c = 1%Z \/ cm_method c = 2%Z -> fine (machine c)) ->
  forall i, i < List.length shipped_files ->
  exists tab, instance_times (run_rows pct shipped_inpath outdir data machine shipped) shipped_files shipped_scenarios shipped_epsilons shipped_ids i = Ok tab /\ List.length tab = 4 /\
    forall s k, s < 4 -> 2 <= k < 5 -> time_cell (nth k (nth s tab []) EDash).
Proof. exact shipped_times. Qed.
Print Assumptions C84_times.

(** AdaptivePartitioner without merging on the same instances. *)
Theorem C84_adaptive : forall data d c, stored data d -> In c shipped -> exists J, load_command shipped_inpath data c = Ok J /\
  forall w cf fuel, oracles_ok w J -> sort_spec (w_sort w) -> exact_answers w -> undisturbed w cf -> options_ok w J cf -> (0 <= c_gap cf)%Q ->
    c_merger cf = false -> i_k J - tolerated J <= fuel ->
    (cm_cont c = 0%Z -> (forall f k j, within30 (d f k j)) ->
       exists vd s v, run w J cf fuel = (Ok vd, s) /\ a_iter s <= i_k J - tolerated J /\ optimum J v /\ bin_result J cf vd s v) /\
    (cm_cont c = 1%Z -> exists r s, run w J cf fuel = (r, s) /\
       ((exists vd v, r = Ok vd /\ a_iter s <= i_k J - tolerated J /\ optimum J v /\ cont_result cf vd s v) \/ exists e, r = Err e /\ close_failed w J cf e s)).
Proof. exact shipped_adaptive. Qed.
Print Assumptions C84_adaptive.
