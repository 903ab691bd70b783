(** Specification of the shipped experiments (C83). *)
From Coq Require Import Ascii String.
From Verif Require Import Base Spec Instance OptModels Bounds Refine CostRefine Merge Violations BigM Adaptive Milp Report Main NameFacts Export.
From Verif Require Import ResultText Campaign.
Local Open Scope nat_scope.
Local Open Scope list_scope.

(** What the names need: a directory in front of the instance, no slash in its name, numbers that are not negative, percentages that
    rounding and truncation agree on and that differ for different levels. *)
Record names_fit (pct : Q -> Q) (inpath : string) (files : list string) (scenarios conts : list Z) (epsilons : list Q) (methods : list Z) : Prop := {
  nf_path : pathlike inpath;
  nf_files : forall f, In f files -> no_char "/" f;
  nf_scen : forall s, In s scenarios -> (0 <= s)%Z;
  nf_cont : forall c, In c conts -> c = 0%Z \/ c = 1%Z;
  nf_pct : forall e, In e epsilons -> (0 <= pct e)%Q /\ Qrnd (pct e) = Qtrunc (pct e);
  nf_eps : forall e e', In e epsilons -> In e' epsilons -> Qrnd (pct e) = Qrnd (pct e') -> e = e';
  nf_meth : forall m, In m methods -> (0 <= m)%Z }.

Section Rows.
  Variable pct : Q -> Q.
  Variable inpath outdir : string.
  Variable data : string -> res text.
  Variable machine : command -> computer.

  (** The row of the result file of a run, None when there is none. *)
  Definition run_cells (c : command) : option (list cell) :=
    match load_command inpath data c with
    | Err _ => None
    | Ok J => match main (mc_world (machine c)) J (loaded_name inpath c) (result_path pct inpath outdir c)
                      (mc_fuel (machine c)) (mc_rfuel (machine c)) (cm_method c) with
              | (Ok _, (_, row) :: _) => Some row
              | _ => None
              end
    end.
  Definition run_row (c : command) : option row_t :=
    match run_cells c with
    | None => None
    | Some row => match read_row row with Ok r => Some r | Err _ => None end
    end.

  (** The results by key of the lists; levels are compared as numbers. *)
  Definition run_rows (cs : list command) (c : Z) (i : string) (s : Z) (j : nat) (e : Q) (m : Z) : option row_t :=
    match find (fun k => (cm_cont k =? c)%Z && String.eqb (cm_file k) i && (cm_scen k =? s)%Z && (cm_id k =? j) && Qeq_bool (cm_eps k) e
                         && (cm_method k =? m)%Z) cs with
    | Some k => run_row k
    | None => None
    end.
End Rows.

(** A row of a result table without any result of the methods 3 and 4 (columns 5 to 8 are nan); method 1 or 2 is highlighted. *)
Definition adaptive_empty (row : list entry) : Prop :=
  List.length row = 9 /\ (forall k, 5 <= k < 9 -> nth k row EDash = ENum None) /\ exists k x, (k = 3 \/ k = 4) /\ nth k row EDash = EBold x.
