(** Concrete result files (C71). *)
From Coq Require Import String Ascii.
From Verif Require Import Base BaseFacts Spec Instance OptModels Bounds Refine CostRefine Merge Violations BigM Adaptive AdaptiveSpec
  Milp MilpFacts AdaptiveEx AdaptiveEx2 MilpEx Report Main ReportFacts NameFacts Export ExportFacts PipelineFacts ReportEx ExportEx.
From Verif Require Import Text TextSpec ResultText ResultSpec ResultFacts ResultRows ResultTables.
Local Open Scope string_scope.
Local Open Scope list_scope.

(** A repr that is right for floats with one decimal. *)
Definition ex_repr (g : gapv) : text := show_fixed 1 g.
Definition crlf : string := String (ascii_of_nat 13) (String (ascii_of_nat 10) EmptyString).
Definition dq : string := String (ascii_of_nat 34) EmptyString.
Definition str (t : text) : string := string_of_list_ascii t.

Definition ex_milp_file (m : string) :=
  match milp_run (brute_world exS) exS milp_cfg true (bigm_of_string m) with
  | (Ok bt, s) => match milp_file ex_repr "mk-4-1-9-1" exS milp_cfg true m bt (Some (25 # 2)) s with Ok t => Ok (str t) | Err e => Err e end
  | (Err e, _) => Err e
  end.
Definition ex_iterations := str (iteration_file (snd (run (ex_world exT brute_tol) exT ex_plain 20))).

Definition red_row (r : res (text * list gapv)) := match r with Ok (n, v) => Ok (str n, map red v) | Err e => Err e end.

(** Three files, of which one is missing, and the exported files. *)
Definition ex_file (t g : string) : text := chars ("r,4,1,9,0,0.1,3600,0.01,1,0,0.5," ++ t ++ ",14,14," ++ g ++ crlf)%string.
Definition ex_fs (p : string) : option text :=
  if String.eqb p "in/ccmknap-9-1-10-0-1.csv" then Some (ex_file "2.5" "0.0")
  else if String.eqb p "in/ccmknap-9-1-10-0-2.csv" then Some (ex_file "1.25" "0.004")
  else if String.eqb p "in/ccmknap-9-1-10-1-1.csv" then Some (ex_file "3600" "7.5")
  else None.
Definition ex_export fs := 
  let '(r, l) := export_text ex_repr (fun e => e * 100)%Q "in/" "out/" ["ccmknap"] [9]%Z [1 # 10]%Q 1 [1; 2]%Z [1; 2]%Z [3; 4]%Z [0; 1]%Z (1 # 100) fs in
  (r, map (fun '(p, t) => (p, str t)) l).

(** A field with a carriage return is read back with a line feed. *)
Lemma cr_field : exists fs, read_table (csv_row fs) <> Ok fs.
Proof. exists [["a"; ascii_of_nat 13; "b"]%char; ["1"]%char]. vm_compute. discriminate. Qed.
Lemma no_cr_read : forall fs rest, Forall no_cr fs -> read_table (csv_row fs ++ rest) = Ok fs.
Proof. intros fs rest H. rewrite (read_table_record _ _ rest (csv_row_record fs)). now rewrite map_universal_id. Qed.
