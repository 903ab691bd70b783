(** Comparisons of bounds, gaps and times in binary64 (the data are doubles; overflow and underflow are not modelled). *)
From Verif Require Import Base Spec Instance Bounds Rounding OptModels Initial Refine CostRefine Merge Violations BigM Adaptive.

(** Sum of a bound and a finite number, rounded. *)
Definition fl_add (rnd : Q -> Q) (a : ext) (q : Q) : ext := match a with Fin x => Fin (rnd (x + q)%Q) | _ => a end.

(** Solver.py:26-36: the subtraction and the division are rounded. *)
Definition gap_fl (rnd : Q -> Q) (vUB : ext) (npU : bool) (vLB : ext) (npL : bool) : res gapv :=
  match vLB, vUB with
  | NInf, _ => Ok (Some PInf)
  | _, PInf => Ok (Some PInf)
  | Fin l, Fin u =>
      if Qeq_bool l 0 then
        if npU || npL then
          Ok (if Qeq_bool (rnd (u - l)%Q) 0 then None else Some (if Qlt_bool 0 (rnd (u - l)%Q) then PInf else NInf))
        else Err ZeroDivisionError
      else Ok (Some (Fin (rnd (rnd (u - l) / l)%Q)))
  | _, _ => Ok None
  end.

(** UpperBounder.py:110-112 *)
Definition prune_fl (rnd : Q -> Q) (costs : list Q) (vLB : ext) : list nat :=
  filter (fun i => ext_leb (Fin (nth i costs 0%Q)) (fl_add rnd vLB (- rnd (1 # 1000))%Q)) (seq 0 (length costs)).

(** AdaptivePartitioner.py:147-148 and UpperBounder.py:34-35 (MERGE_TOL = 1.00): v is at most the current bound + 1e-8. *)
Definition not_above_fl (rnd : Q -> Q) (v : Q) (vUB : ext) : bool := ext_leb (Fin v) (fl_add rnd vUB (rnd (1 # 100000000))).

(** LowerBounder.py:107-119; [objs] are the computed objectives, [feas] the flags of is_feasible. *)
Fixpoint incumbent_loop_fl (rnd : Q -> Q) (feas : list Q -> bool) (cands : list (list Q)) (objs : list Q) (vUB vLB : ext) (l : list nat)
  : option (list Q * Q) :=
  match l with
  | [] => None
  | i :: l' =>
      let o := nth i objs 0%Q in
      let x := nth i cands [] in
      if ext_leb (Fin o) vUB && ext_leb (fl_add rnd vLB (rnd (1 # 100000000))) (Fin o) then
        if feas x then Some (x, o) else incumbent_loop_fl rnd feas cands objs vUB vLB l'
      else incumbent_loop_fl rnd feas cands objs vUB vLB l'
  end.

(** TimeManager.py:27-39 *)
Definition remaining_fl (rnd : Q -> Q) (limit now start : Q) : Q := Qmax (rnd (limit - rnd (now - start))%Q) 0.

(** Evaluator.py:16-19, BigMFinder.py:89-92: floor(100*s/nb), then a line every ten percent.  The quotient of two integers of
    python is rounded once. *)
Definition percent_fl (rnd : Q -> Q) (s nb : nat) : Z := Qfloor (rnd (100 * Qn s / Qn nb)%Q).
Definition progress_fl (rnd : Q -> Q) (s nb : nat) : option Z :=
  let p := percent_fl rnd s nb in if (p mod 10 =? 0)%Z then Some p else None.
