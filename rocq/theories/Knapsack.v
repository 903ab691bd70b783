(** Model of src/song_big_m.py. *)
From Verif Require Import Base Spec Instance.

(** song_big_m.py:13-14: boolean mask [l[weights != 0.0]]. *)
Definition nonzero_mask (weights l : list Q) : list Q :=
  map snd (filter (fun wl => negb (Qeq_bool (fst wl) 0)) (combine weights l)).

(** song_big_m.py:8-11: revenue of the items of weight zero. *)
Definition zero_weight_revenue (weights revenue : list Q) : Q :=
  qsum (map snd (filter (fun wl => Qeq_bool (fst wl) 0) (combine weights revenue))).

(** song_big_m.py:21-22: available capacity; the capacity may be inf (vUB in Belotti's method). *)
Definition ext_pos (a : ext) : bool := ext_ltb (Fin 0) a.

(** song_big_m.py:23: min(available/weight, 1). *)
Definition quantity (avail : ext) (w : Q) : ext :=
  match avail with
  | Fin a => Fin (Qmin (a / w) 1)
  | PInf => if Qlt_bool w 0 then NInf else Fin 1
  | NInf => NInf
  end.

(** song_big_m.py:19-29: loop over the items in the given order. *)
Fixpoint greedy (revenue weights : list Q) (capacity : ext) (order : list nat)
    (profit knapsack_weight : Q) : res Q :=
  match order with
  | [] => Ok profit
  | i :: order' =>
      let avail := ext_add capacity (- knapsack_weight) in
      if ext_pos avail then
        match quantity avail (nth i weights 0%Q) with
        | Fin q =>
            do _ <- rassert (Qle_bool 0 q) ;;
            if Qlt_bool 0 (nth i revenue 0%Q)
            then greedy revenue weights capacity order'
                   (profit + nth i revenue 0 * q)%Q (knapsack_weight + nth i weights 0 * q)%Q
            else greedy revenue weights capacity order' profit knapsack_weight
        | _ => Err AssertionError
        end
      else Ok profit
  end.

(** song_big_m.py:4-31 *)
Definition solve_continuous_knapsack (argsort : list Q -> list nat) (revenue : list Q)
    (obj_constant : Q) (weights : list Q) (capacity : ext) : res Q :=
  let profit := (- obj_constant + zero_weight_revenue weights revenue)%Q in
  let r := nonzero_mask weights revenue in
  let w := nonzero_mask weights weights in
  let values := map (fun rw => (fst rw / snd rw)%Q) (combine r w) in
  greedy r w capacity (argsort (map Qopp values)) profit 0.

(** song_big_m.py:34-42: least violation over the constraints of scenario s'. *)
Definition song_min_violation (argsort : list Q -> list nat) (I : inst) (s i s' : nat) : res ext :=
  fold_left (fun acc i' =>
    do v <- acc ;;
    do t <- solve_continuous_knapsack argsort (row I s i) (rhs I s i) (row I s' i') (Fin (rhs I s' i')) ;;
    Ok (ext_min v (Fin t))) (seq 0 (i_m I)) (Ok PInf).

(** song_big_m.py:45-54, 57-78: entry (s, s', i) of the table, flattened as
    s*k*m + s'*m + i.  Simplification: the loops over i and s' are exchanged. *)
Definition python_violations (argsort : list Q -> list nat) (I : inst) : res (list ext) :=
  do rows <- rmap (fun s => rmap (fun t => rmap (fun i => song_min_violation argsort I s i t)
                                             (seq 0 (i_m I))) (seq 0 (i_k I))) (seq 0 (i_k I)) ;;
  Ok (concat (map (@concat _) rows)).
