(** Shared vocabulary: exceptions as values, rationals, extended rationals,
    list primitives mirroring the Python/numpy primitives used by the code. *)
From Coq Require Export QArith Qround Qminmax Lqa List Lia Arith Bool Permutation Sorted ZArith.
Export ListNotations.
Open Scope nat_scope.

(** Python exceptions that the modelled code can raise.  [NonTermination] is not a
    Python exception: it is the value returned by a fuelled loop that runs out of fuel. *)
Inductive exn : Type :=
| AssertionError | ValueError | KeyError | IndexError | TypeError | AttributeError
| ZeroDivisionError | NotImplementedError | KeyboardInterrupt | GurobiError
| UnboundLocalError | NameError
| NonTermination.

Inductive res (A : Type) : Type :=
| Ok (a : A)
| Err (e : exn).
Arguments Ok {A} a.
Arguments Err {A} e.

Definition rbind {A B} (m : res A) (f : A -> res B) : res B :=
  match m with Ok a => f a | Err e => Err e end.

Declare Scope res_scope.
Delimit Scope res_scope with res.
Notation "'do' x <- m ;; k" := (rbind m (fun x => k))
  (at level 200, x pattern, m at level 100, k at level 200, right associativity) : res_scope.
Open Scope res_scope.

(** Python [assert]. *)
Definition rassert (b : bool) : res unit := if b then Ok tt else Err AssertionError.

(** ** Rationals *)
Definition Qn (n : nat) : Q := inject_Z (Z.of_nat n).
Definition Qlt_bool (x y : Q) : bool := negb (Qle_bool y x).

(** Inner product, numpy [A_si.dot(x)] / gurobi [quicksum(A[i,j]*x[j])].
    Simplification: truncates on unequal lengths, where numpy raises; theorems only
    use it on vectors of equal length. *)
Fixpoint dot (u v : list Q) : Q :=
  match u, v with
  | a :: u', x :: v' => (a * x + dot u' v')%Q
  | _, _ => 0%Q
  end.

Fixpoint qsum (l : list Q) : Q :=
  match l with [] => 0%Q | a :: l' => (a + qsum l')%Q end.

(** ** Extended rationals: values of [vUB], [vLB], numpy [inf] *)
Inductive ext : Type := NInf | Fin (q : Q) | PInf.

Definition ext_leb (a b : ext) : bool :=
  match a, b with
  | NInf, _ => true
  | _, PInf => true
  | Fin x, Fin y => Qle_bool x y
  | _, _ => false
  end.
Definition ext_ltb (a b : ext) : bool := negb (ext_leb b a).
Definition ext_add (a : ext) (q : Q) : ext :=
  match a with Fin x => Fin (x + q)%Q | _ => a end.
Definition ext_min (a b : ext) : ext := if ext_leb a b then a else b.

(** ** Lists *)

(** [l[i] = v] (in range). *)
Fixpoint upd {A} (i : nat) (v : A) (l : list A) : list A :=
  match l, i with
  | [], _ => []
  | _ :: l', 0 => v :: l'
  | a :: l', S i' => a :: upd i' v l'
  end.

(** [del l[i]] (in range). *)
Fixpoint del {A} (i : nat) (l : list A) : list A :=
  match l, i with
  | [], _ => []
  | _ :: l', 0 => l'
  | a :: l', S i' => a :: del i' l'
  end.

Definition memb (x : nat) (l : list nat) : bool := existsb (Nat.eqb x) l.

(** Number of elements satisfying a test. *)
Definition count {A} (f : A -> bool) (l : list A) : nat := length (filter f l).

(** Python slices [l[i::n]] : elements at positions i, i+n, i+2n, ... *)
Fixpoint stride_aux {A} (skip n : nat) (l : list A) : list A :=
  match l with
  | [] => []
  | a :: l' => match skip with
               | 0 => a :: stride_aux (n - 1) n l'
               | S k => stride_aux k n l'
               end
  end.
Definition stride {A} (i n : nat) (l : list A) : list A := stride_aux i n l.

(** Stable insertion sort: models Python's [sorted]/[list.sort] (which is stable). *)
Fixpoint insert {A} (leb : A -> A -> bool) (a : A) (l : list A) : list A :=
  match l with
  | [] => [a]
  | b :: l' => if leb a b then a :: b :: l' else b :: insert leb a l'
  end.
Fixpoint isort {A} (leb : A -> A -> bool) (l : list A) : list A :=
  match l with [] => [] | a :: l' => insert leb a (isort leb l') end.

(** [np.argsort] : only its specification is used (the tie order of numpy's default
    sort is unspecified); theorems quantify over all functions meeting it. *)
Definition argsort_ok (f : list Q -> list nat) : Prop :=
  forall l, Permutation (f l) (seq 0 (length l)) /\
            StronglySorted (fun i j => nth i l 0 <= nth j l 0)%Q (f l).

(** One function meeting [argsort_ok]. *)
Definition argsort_ref (l : list Q) : list nat :=
  isort (fun i j => Qle_bool (nth i l 0%Q) (nth j l 0%Q)) (seq 0 (length l)).
