(** Console output of an iteration and of the progress of a loop (Informer.py:14-31, Evaluator.py:16-19, BigMFinder.py:89-92). *)
From Coq Require Import Ascii String.
From Verif Require Import Base Spec Instance OptModels Bounds Refine CostRefine Merge Violations BigM Adaptive Report ResultText BoundsFl.
Local Open Scope nat_scope.
Local Open Scope list_scope.

(** Zeros between the sign and the text, up to width w (also for inf and nan). *)
Definition zero_pad (w : nat) (t : text) : text :=
  match t with
  | "-"%char :: u => "-"%char :: repeat "0"%char (w - List.length t) ++ u
  | _ => repeat "0"%char (w - List.length t) ++ t
  end.
(** "{:0w.df}".format(x) *)
Definition show_padded (w d : nat) (g : gapv) : text := zero_pad w (show_fixed d g).

(** Informer.py:14-31: the lines printed. *)
Definition iteration_lines (iter : nat) (vUB vLB : ext) (gap : gapv) (elapsed : Q) : list text :=
  let start := chars "        ####      " in
  [ []
  ; chars "        ########      -  Iteration " ++ show_int (Z.of_nat iter) ++ chars " -      ########"
  ; start ++ chars "Best vUB: " ++ show_padded 6 2 (Some vUB)
  ; start ++ (match vLB with NInf => chars "Best vLB:  -inf " | _ => chars "Best vLB: " ++ show_padded 6 2 (Some vLB) end)
  ; start ++ (match gap with Some PInf => chars "Gap: inf" | _ => chars "Gap: " ++ show_padded 6 2 (times100 gap) end)
  ; start ++ chars "Computation Time:  " ++ show_padded 6 2 (finite elapsed) ].

(** Evaluator.py:16-19, BigMFinder.py:89-92: "[p%] " and a carriage return. *)
Definition progress_text (rnd : Q -> Q) (s nb : nat) : text :=
  match progress_fl rnd s nb with
  | Some p => "["%char :: show_int p ++ chars "%] " ++ [Text.CR]
  | None => []
  end.
