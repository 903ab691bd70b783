(** The experiments of the paper: data/cc-instances/knapsack/generate-all-instances.sh, run_all_experiments.sh, main.py run once
    for each set of parameters, export_results.py.
    Simplifications: the solver, the clock and the random numbers of a run are those of [machine c], a function of the command, so
    a command that is run twice gives the same result; a file written partially does not occur; directories exist
    (main.py:39-40 creates the missing one). *)
From Coq Require Import Ascii String.
From Verif Require Import Base Spec Instance OptModels Bounds Refine CostRefine Merge Violations BigM Adaptive Milp Report Main Export.
From Verif Require Text.
From Verif Require Import ResultText.
Local Open Scope nat_scope.
Local Open Scope list_scope.

(** ** Names of the instances *)

(** Numbers of items and of constraints at the head of data/orlib/instance1.txt ... instance8.txt. *)
Definition orlib_sizes : list (Z * Z) := [(6, 10); (10, 10); (15, 10); (20, 10); (28, 10); (39, 5); (50, 5); (40, 30)]%Z.
(** generate-all-instances.sh:5-6 *)
Definition orlib_scenarios : list Z := [500; 1000; 3000; 5000]%Z.
Definition orlib_copies : nat := 5.
(** instance-generator.py:62-64 *)
Definition instance_file (items constraints scenarios : Z) (j : nat) : string :=
  ("ccmknap-" ++ str_of_Z items ++ "-" ++ str_of_Z constraints ++ "-" ++ str_of_Z scenarios ++ "-" ++ str_of_Z (Z.of_nat j) ++ ".csv")%string.
(** generate-all-instances.sh:3-14, instance-generator.py:31, 62-64: the files generated, in order. *)
Definition generated (sizes : list (Z * Z)) (scenarios : list Z) (copies : nat) : list string :=
  flat_map (fun nm : Z * Z => flat_map (fun s => map (instance_file (fst nm) (snd nm) s) (seq 1 copies)) scenarios) sizes.

(** ** run_all_experiments.sh *)

(** Arguments of one call of main.py (run_all_experiments.sh:24-25). *)
Record command := mkCommand { cm_file : string; cm_scen : Z; cm_id : nat; cm_cont : Z; cm_eps : Q; cm_method : Z }.
(** run_all_experiments.sh:12-33, in the order of the loops. *)
Definition commands (files : list string) (scenarios : list Z) (ids : nat) (conts : list Z) (epsilons : list Q) (methods : list Z) : list command :=
  flat_map (fun f => flat_map (fun s => flat_map (fun j => flat_map (fun c => flat_map (fun e =>
    map (fun m => mkCommand f s j c e m) methods) epsilons) conts) (seq 1 ids)) scenarios) files.
(** run_all_experiments.sh:24 *)
Definition input_file (inpath : string) (c : command) : string :=
  (inpath ++ (cm_file c ++ "-" ++ str_of_Z (cm_scen c) ++ "-" ++ str_of_Z (Z.of_nat (cm_id c))) ++ "." ++ "csv")%string.

(** run_all_experiments.sh:1-6, 9-10 and the same lists in export_results.py:8-14, 19-21. *)
Definition shipped_files : list string := ["ccmknap-10-10"; "ccmknap-20-10"; "ccmknap-40-30"]%string.
Definition shipped_scenarios : list Z := [500; 1000; 3000; 5000]%Z.
Definition shipped_ids : nat := 5.
Definition shipped_conts : list Z := [0; 1]%Z.
Definition shipped_epsilons : list Q := [1 # 10; 1 # 5]%Q.
Definition shipped_methods : list Z := [1; 2; 3; 4]%Z.
Definition shipped_inpath : string := "./data/cc-instances/knapsack/".
Definition shipped : list command := commands shipped_files shipped_scenarios shipped_ids shipped_conts shipped_epsilons shipped_methods.

(** ** Runs *)

(** What a run of main.py depends on beside its arguments and the instance file. *)
Record computer := mkComputer { mc_world : world; mc_fuel : nat; mc_rfuel : nat }.

Section Runs.
  Variable repr : gapv -> text                (* repr of a float *).
  Variable pct : Q -> Q                       (* the float EPSILON*100 *).
  Variable inpath outdir : string             (* run_all_experiments.sh:9-10 *).
  Variable data : string -> res text          (* the instance files; Err: open raises *).
  Variable machine : command -> computer.
  Variable trace : command -> option text     (* the file of the bounds of a run of method 1 or 2 (OptiModel.py:177-180), when it is written *).

  (** main.py:48-55 *)
  Definition loaded_name (c : command) : string := file_name (input_file inpath c).
  Definition cont_arg (c : command) : bool := (cm_cont c =? 1)%Z.
  Definition result_path (c : command) : string := out_name outdir (loaded_name c) (pct (cm_eps c)) (cont_arg c) (cm_method c).
  Definition iter_path (c : command) : string :=
    (outdir ++ loaded_name c ++ "-" ++ fmt0 (pct (cm_eps c)) ++ (if cont_arg c then "-1-" else "-0-") ++ str_of_Z (cm_method c) ++ "-iter.csv")%string.

  (** main.py:43-45 *)
  Definition load_command (c : command) : res inst :=
    do t <- data (input_file inpath c) ;; Text.load_text t (cont_arg c) (cm_eps c).

  (** main.py: outcome and files written, in order. *)
  Definition main_py (c : command) : res unit * list (string * text) :=
    match load_command c with
    | Err e => (Err e, [])
    | Ok J =>
        let '(r, out) := main_text repr (mc_world (machine c)) J (loaded_name c) (result_path c) (iter_path c) true
                           (mc_fuel (machine c)) (mc_rfuel (machine c)) (cm_method c) in
        (r, match trace c with
            | Some t => if (cm_method c =? 1)%Z || (cm_method c =? 2)%Z then [(iter_path c, t)] else []
            | None => []
            end ++ out)
    end.

  (** Files after the writes. *)
  Definition write_file (fs : string -> option text) (x : string * text) : string -> option text :=
    fun q => if String.eqb q (fst x) then Some (snd x) else fs q.
  Definition write_files (out : list (string * text)) (fs : string -> option text) : string -> option text := fold_left write_file out fs.
  (** The calls one after the other, each waited for; an exception ends its own call only (run_all_experiments.sh:25-27). *)
  Definition campaign (cs : list command) (fs : string -> option text) : string -> option text :=
    fold_left (fun fs c => write_files (snd (main_py c)) fs) cs fs.
End Runs.
