(** Model of main.py: file names, choice of the method, and the result file. *)
From Coq Require Import String Ascii DecimalString.
From Verif Require Import Base Spec Instance OptModels Initial Bounds Refine CostRefine Merge Knapsack Violations BigM Adaptive Milp Report.
Local Open Scope string_scope.

(** ** Text *)
(** str(z) *)
Definition str_of_Z (z : Z) : string := NilZero.string_of_int (Z.to_int z).
(** "{:.0f}".format(q): the sign of a negative number is kept, -0.3 is written -0. *)
Definition fmt0 (q : Q) : string :=
  if Qlt_bool q 0 then "-" ++ str_of_Z (- Qrnd q) else str_of_Z (Qrnd q).

(** os.path.basename and os.path.splitext(.)[0] of a posix path (ChanceInstance.py:38-44). *)
Fixpoint basename (s : string) : string :=
  match s with
  | EmptyString => EmptyString
  | String c s' => let b := basename s' in
                   if Ascii.eqb c "/" then b
                   else if String.eqb b s' then String c b else b
  end.
(** Prefix before the last dot. *)
Fixpoint before_dot (s : string) : option string :=
  match s with
  | EmptyString => None
  | String c s' => match before_dot s' with
                   | Some p => Some (String c p)
                   | None => if Ascii.eqb c "." then Some EmptyString else None
                   end
  end.
Fixpoint all_dots (s : string) : bool :=
  match s with EmptyString => true | String c s' => Ascii.eqb c "." && all_dots s' end.
Definition splitext_root (s : string) : string :=
  match before_dot s with
  | None => s
  | Some p => if all_dots p then s else p
  end.
Definition file_name (loc : string) : string := splitext_root (basename loc).

(** main.py:47-53.  [pct] is EPSILON*100. *)
Definition out_name (outdir name : string) (pct : Q) (cont : bool) (meth : Z) : string :=
  outdir ++ name ++ "-" ++ fmt0 pct ++ (if cont then "-1-" else "-0-") ++ str_of_Z meth ++ ".csv".
(** format_results.py:18-22.  [pct] is e*100. *)
Definition read_name (indir i : string) (s j : Z) (pct : Q) (cont : Z) (m : Z) : string :=
  indir ++ i ++ "-" ++ str_of_Z s ++ "-" ++ str_of_Z j ++ "-" ++ str_of_Z (Qtrunc pct) ++ "-" ++ str_of_Z cont ++ "-" ++ str_of_Z m ++ ".csv".

(** ** Calls with keywords *)
(** Binding of a call with [npos] positional arguments and keywords [kws] to the parameters [ps] (without *args, **kwargs;
    parameters without default value are all positional here). *)
Definition bind_keywords (ps : list string) (npos : nat) (kws : list string) : res unit :=
  if forallb (fun k => existsb (String.eqb k) (skipn npos ps)) kws then Ok tt else Err TypeError.
(** AdaptivePartitioner.py:273-274 *)
Definition solve_params : list string := ["bigMFinder"; "use_big_M"; "big_m_method"; "use_merger"; "use_lazy"].
(** main.py:94-96, 107-109 *)
Definition keywords3 : list string := ["use_merger"; "use_big_M"; "big_m_method"; "use_balancing"].
Definition keywords4 : list string := ["use_merger"; "use_big_M"; "big_m_method"; "use_balancing"; "use_lazy"].

Section Main.
  Variable w : world.
  Variable I : inst.
  Variable name : string     (* chance_instance.get_file_name() *).
  Variable path : string     (* computation_output_file_name *).
  Variable fuel : nat        (* turns of the main loop *).
  Variable rfuel : nat       (* turns of the loop of the random refiner *).

  (** main.py:24-25 *)
  Definition TIME_LIMIT : Q := 3600.
  Definition GAP : Q := 1 # 10000.
  (** main.py:84-96, 99-109 *)
  Definition cfg3 : cfg := mkCfg SplitRandom InitRandom ProjRescaled false TIME_LIMIT GAP true Belotti false false rfuel.
  Definition cfg4 : cfg := mkCfg SplitCost InitCost ProjRescaled true TIME_LIMIT GAP true Belotti true true rfuel.
  Definition cfgM : cfg := mkCfg SplitOther InitOther ProjRescaled false TIME_LIMIT GAP true Belotti false false rfuel.

  (** Result of the script: exception or normal end, and the result files written (path, row). *)
  Definition outcome_main : Type := (res unit * list (string * list cell))%type.

  (** main.py:76-83, 114-116: time.time() at set_final_time is the next reading of the clock. *)
  Definition main_milp (m : string) : outcome_main :=
    match milp_run w I cfgM true (bigm_of_string m) with
    | (Err e, _) => (Err e, [])
    | (Ok bt, s) =>
        match milp_row name I cfgM true m bt (Some (w_clock w (a_t s))) s with
        | Ok row => (Ok tt, [(path, row)])
        | Err e => (Err e, [])
        end
    end.

  (** main.py:84-112, 114-118.  BigMFinder(method.chance_instance_part) (92, 105) computes naive big M's, as the first
      iteration does.  An interruption inside solve is caught (97, 110). *)
  Definition main_adaptive (cf : cfg) (kws : list string) (split init : string) : outcome_main :=
    match construct w I cf (ast0 I) with
    | (Err e, _) => (Err e, [])
    | (Ok b, s) =>
        let write (s' : ast) :=
          match adaptive_row name I cf split init "rescaled_max_violation" true (0 <? a_iter s')%nat (Some (w_clock w (a_t s'))) s' with
          | Ok row => (Ok tt, [(path, row)])
          | Err e => (Err e, [])
          end in
        match bind_keywords solve_params 1 kws with
        | Err e => (Err e, [])
        | Ok _ =>
            match solve w I cf fuel b s with
            | (Ok _, s') => write s'
            | (Err KeyboardInterrupt, s') => write s'
            | (Err e, _) => (Err e, [])
            end
        end
    end.

  (** main.py:60-61 (time-out), main.py:76-118: a method outside 1..4 leaves the variable [method] undefined. *)
  Definition main (METHOD : Z) : outcome_main :=
    if (METHOD =? 1)%Z then main_milp "song"
    else if (METHOD =? 2)%Z then main_milp "belotti"
    else if (METHOD =? 3)%Z then main_adaptive cfg3 keywords3 "random" "random"
    else if (METHOD =? 4)%Z then main_adaptive cfg4 keywords4 "cost" "cost"
    else (Err NameError, []).
End Main.
