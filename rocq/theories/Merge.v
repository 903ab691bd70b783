(** Model of src/Merger.py. *)
From Verif Require Import Base Spec Instance.

(** Attributes of the merger: target_subsets, deleted_subsets. *)
Record mstate : Type := mkMs { ms_target : list nat; ms_deleted : list nat }.

(** Merger.py:6-9, Merger.py:38-50.  Indices are non-negative; IndexError out of range. *)
Definition merge_two (p : list (list nat)) (ms : mstate) (c1 c2 : nat)
  : res (list (list nat) * mstate) :=
  let t := Nat.min c1 c2 in
  let d := Nat.max c1 c2 in
  let targets := if memb t (ms_target ms) then ms_target ms else ms_target ms ++ [t] in
  do a <- geti p t ;;
  do b <- geti p d ;;
  Ok (upd t (a ++ b) p, mkMs targets (ms_deleted ms ++ [d])).

(** [np.sort(l)[::-1]] *)
Definition sort_desc (l : list nat) : list nat := rev (isort Nat.leb l).

Fixpoint delete_all {A} (p : list A) (l : list nat) : res (list A) :=
  match l with
  | [] => Ok p
  | c :: l' => do _ <- geti p c ;; delete_all (del c p) l'
  end.
(** Merger.py:31-36 *)
Definition delete_subsets {A} (p : list A) (deleted : list nat) : res (list A) :=
  delete_all p (sort_desc deleted).

(** [sorted(zip(costs, candidates), reverse=True)]: lexicographic on (cost, candidate),
    decreasing.  Equal pairs are equal, so stability is irrelevant. *)
Definition pair_geb (a b : Q * nat) : bool :=
  Qlt_bool (fst b) (fst a) || (Qeq_bool (fst a) (fst b) && (snd b <=? snd a)).
(** Merger.py:53-56: zip truncates to the shorter list. *)
Definition sort_subset_costs (cands : list nat) (costs : list Q) : list nat :=
  map snd (isort pair_geb (combine costs cands)).

(** Merger.py:58-76.  Not called by the repository. *)
Definition can_merge_feasible (new_costs : list Q) (vUB : ext) (nb_feasible : nat) (tol : Q) : res bool :=
  do _ <- rassert (Qle_bool 1 tol) ;;
  match new_costs with
  | [] => Err ValueError
  | a :: l =>
      let mx := fold_left Qmax l a in
      Ok (match vUB with
          | Fin v => Qle_bool mx (tol * v)
          | PInf => true
          | NInf => false
          end && (2 <=? nb_feasible))
  end.

(** Merger.py:78-90.  Not called by the repository. *)
Definition find_inf_candidate (infeasible : list nat) (costs : list Q) (vUB : ext) : res (list nat) :=
  do cs <- rmap (fun c => do v <- geti costs c ;; Ok (c, v)) infeasible ;;
  let cand := map fst (filter (fun cv => ext_leb (Fin (snd cv)) vUB) cs) in
  Ok (sort_subset_costs cand costs).

(** [min(list)] *)
Definition nmin (l : list nat) : res nat :=
  match l with [] => Err ValueError | a :: l' => Ok (fold_left Nat.min l' a) end.

Fixpoint merge_loop (p : list (list nat)) (ms : mstate) (m : nat) (l : list nat)
  : res (list (list nat) * mstate) :=
  match l with
  | [] => Ok (p, ms)
  | s :: l' =>
      if Nat.eqb s m then merge_loop p ms m l'
      else do (p', ms') <- merge_two p ms m s ;; merge_loop p' ms' m l'
  end.

(** Merger.py:92-106 *)
Definition merge_all (p : list (list nat)) (cands : list nat) : res (list (list nat) * mstate) :=
  let init := length p in
  do m <- nmin cands ;;
  do (p1, ms) <- merge_loop p (mkMs [] []) m cands ;;
  do p2 <- delete_subsets p1 (ms_deleted ms) ;;
  do _ <- rassert (length p2 + length (ms_deleted ms) =? init) ;;
  Ok (p2, ms).

Fixpoint merge_pairs (p : list (list nat)) (ms : mstate) (inf : list nat) (l : list nat)
  : res (list (list nat) * mstate) :=
  match l with
  | [] => Ok (p, ms)
  | c :: l' =>
      match inf with
      | [] => Err IndexError
      | i :: inf' => do (p', ms') <- merge_two p ms i c ;; merge_pairs p' ms' inf' l'
      end
  end.
(** Merger.py:108-121.  Not called by the repository. *)
Definition merge (p : list (list nat)) (cands inf : list nat) : res (list (list nat) * mstate) :=
  let init := length p in
  do (p1, ms) <- merge_pairs p (mkMs [] []) inf cands ;;
  do p2 <- delete_subsets p1 (ms_deleted ms) ;;
  do _ <- rassert (length p2 + length (ms_deleted ms) =? init) ;;
  Ok (p2, ms).

(** Merger.py:12-29: least rescaled slack of the subset (inf without constraint). *)
Definition subset_margin (norm : list Q -> Q) (V : view) (c : nat) (x : list Q) : ext :=
  fold_left (fun acc i =>
    let t := (v_rhs V c i - dot (v_row V c i) x)%Q in
    let r := norm (v_row V c i) in
    let t := if Qeq_bool r 0 then t else (t / r)%Q in
    ext_min (Fin t) acc) (seq 0 (v_m V c)) PInf.

(** Merger.py:123-146.  The dictionary [margins] has one entry per distinct candidate, in
    order of first occurrence; [sorted(..., reverse=True)] keeps the order of equal keys. *)
Fixpoint dedup (l : list nat) (seen : list nat) : list nat :=
  match l with
  | [] => []
  | c :: l' => if memb c seen then dedup l' seen else c :: dedup l' (c :: seen)
  end.
Definition merge_feasible (norm : list Q -> Q) (V : view) (p : list (list nat)) (x : list Q)
    (cands : list nat) (mu : nat) : res (list (list nat) * mstate) :=
  let init := length p in
  let keys := dedup cands [] in
  let margins := map (fun c => (c, subset_margin norm V c x)) keys in
  let sorted := isort (fun a b => ext_leb (snd b) (snd a)) margins in
  let top := firstn (mu + 1) (map fst sorted) in
  do _ <- rassert (length top =? mu + 1) ;;
  do (p', ms) <- merge_all p top ;;
  do _ <- rassert (length p' + length (ms_deleted ms) =? init) ;;
  Ok (p', ms).
