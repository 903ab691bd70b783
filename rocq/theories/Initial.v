(** Model of src/Initializer.py. *)
From Verif Require Import Base Spec Instance.

(** Initializer.py:9-13, Initializer.py:16-24; [perm] is the result of random.sample (line 23). *)
Definition random_partition (perm : list nat) (n : nat) : list (list nat) :=
  map (fun i => stride i n perm) (seq 0 n).

(** Initializer.py:26-47; [sorted] is np.argsort(-scenario_costs) (line 39);
    range(i, nb_scenarios, nb_clusters) is [stride i nb_clusters (seq 0 nb_scenarios)]. *)
Definition cost_partition (k : nat) (sorted : list nat) (n : nat) : res (list (list nat)) :=
  rmap (fun i => rmap (fun j => do t <- geti sorted j ;; geti (seq 0 k) t) (stride i n (seq 0 k)))
       (seq 0 n).

(** Initializer.py:49-56 *)
Definition check_partitions (k : nat) (p : list (list nat)) (n : nat) : res unit :=
  let all := concat p in
  do _ <- rassert (length all =? k) ;;
  do _ <- rassert (length (nodup Nat.eq_dec all) =? k) ;;
  rassert (length p =? n).

Inductive init_type := InitRandom | InitCost | InitOther.

(** Initializer.py:59-76.  The costs (line 36) are passed as an argument: the calls of the
    evaluator are in Adaptive.v. *)
Definition create_first_partition (argsort : list Q -> list nat) (perm : list nat)
    (costs : list Q) (k n : nat) (ty : init_type) : res (list (list nat)) :=
  do _ <- rassert (n <=? k) ;;
  do p <- match ty with
          | InitRandom => Ok (random_partition perm n)
          | InitCost => cost_partition k (argsort (map Qopp costs)) n
          | InitOther => Err NotImplementedError
          end ;;
  do _ <- check_partitions k p n ;;
  Ok p.
