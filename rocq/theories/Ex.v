(** Small concrete instances used by the non-vacuity examples. *)
From Verif Require Import Base Spec Instance.

(** Sum of absolute values: one admissible value for the [np.linalg.norm] oracle. *)
Definition norm1 (r : list Q) : Q := qsum (map (fun a => Qmax a (- a)) r).

(** Three scenarios, two items, two constraints; eps = 1/3. *)
Definition ex_rows : list (list Q) :=
  [ [2; 2; 3]; [5; 4];
    [1; 2]; [2; 1];
    [3; 0]; [1; 1];
    [2; 2]; [0; 3];
    [3; 2] ]%Q.
Definition exI : inst :=
  match parse ex_rows false (1 # 3) with Ok J => J | Err _ => mkInst 0 0 0 false 0 [] [] [] end.
Definition exIc : inst :=
  match parse ex_rows true (1 # 3) with Ok J => J | Err _ => mkInst 0 0 0 false 0 [] [] [] end.

(** Six scenarios, one item, one constraint, eps = 1/3: two scenarios may be violated. *)
Definition exI6 : inst :=
  mkInst 1 1 6 false (1 # 3) [1%Q] (map (fun a => [[a]]) [3; 3; 3; 3; 1; 1]%Q)
    (map (fun b => [b]) [1; 2; 1; 2; 1; 1]%Q).
(** Scenarios 0-3 are violated by x = 1. *)
Definition ex_bad (s : nat) : bool := s <? 4.
(** Rotations as random permutations. *)
Definition ex_perm (t n : nat) : list nat := map (fun i => (i + t) mod n) (seq 0 n).
