(** Rounding to binary64 of the data and of the feasibility check (ChanceKnapInstance.py:26-44, 61-97).  The exponent range is
    not bounded: neither overflow nor underflow is modelled (a sum of doubles never underflows; products by 0 or 1 are exact). *)
From Coq Require Import Qpower Qabs Permutation.
From Verif Require Import Base Spec Instance Bounds.

(** Exponent of a non-zero number: 2^mag <= |q| < 2^(mag+1). *)
Definition mag (q : Q) : Z :=
  let e := (Z.log2 (Z.abs (Qnum q)) - Z.log2 (Zpos (Qden q)))%Z in
  if Qle_bool (2 ^ e)%Q (Qabs q) then e else (e - 1)%Z.
(** Nearest number with 53 significant bits, halves to even. *)
Definition rnd53 (q : Q) : Q :=
  if Qeq_bool q 0 then 0%Q
  else let s := (2 ^ (mag q - 52))%Q in (inject_Z (Qrnd (q / s)) * s)%Q.

(** The double stored for a decimal x of the file: float(text), then [np.round(., decimals=1)], which multiplies by 10, rounds to
    an integer and divides by 10 (ChanceKnapInstance.py:42-44). *)
Definition store (x : Q) : Q := rnd53 (inject_Z (Qrnd (rnd53 (10 * rnd53 x))) / 10)%Q.

(** [parse] with a given rounding of the numbers (ChanceKnapInstance.py:9-59); [parse] is the case [round1]. The three numbers
    of the header are small integers, hence doubles. *)
Definition parse_with (f : Q -> Q) (rows : list (list Q)) (cont : bool) (eps : Q) : res inst :=
  do info <- geti rows 0 ;;
  do fn <- geti info 0 ;;
  do fk <- geti info 2 ;;
  let n := Qtrunc fn in
  let k := Qtrunc fk in
  do fm <- geti info 1 ;;
  let m := Qtrunc fm in
  if ((n <? 0)%Z || (k <? 0)%Z) then Err ValueError
  else
    let n := Z.to_nat n in
    let k := Z.to_nat k in
    do c <- geti rows 1 ;;
    let mm := Z.to_nat m in
    do A <- rmap (fun s => rmap (fun i => geti rows (2 + s * mm + i)) (seq 0 mm)) (seq 0 k) ;;
    if negb (rectangular A) then Err ValueError
    else if Nat.eqb k 0 then Err IndexError
    else if (m <? 0)%Z then Err ValueError
    else
      do b <- broadcast (last rows []) k mm ;;
      Ok (mkInst n mm k cont eps (map f c) (map (map (map f)) A) (map (map f) b)).
(** The instance of which every number is rounded by [rnd]. *)
Definition fl_inst (rnd : Q -> Q) (I : inst) : inst :=
  mkInst (i_n I) (i_m I) (i_k I) (i_cont I) (i_eps I) (map rnd (i_c I)) (map (map (map rnd)) (i_A I)) (map (map rnd) (i_b I)).

(** Sum of the terms [l], computed with at most [d] roundings on the way from each term to the result: any order, any grouping
    (sequential, pairwise, vectorised), products rounded or fused with the addition (numpy's dot leaves this open). *)
Inductive fsum (rnd : Q -> Q) : nat -> list Q -> Q -> Prop :=
| fs_zero d : fsum rnd d [] 0%Q
| fs_term d q : fsum rnd d [q] q
| fs_prod d q : fsum rnd (S d) [q] (rnd q)
| fs_add d l1 l2 v1 v2 : fsum rnd d l1 v1 -> fsum rnd d l2 v2 -> fsum rnd (S d) (l1 ++ l2) (rnd (v1 + v2)%Q)
| fs_perm d l l' v : Permutation l l' -> fsum rnd d l v -> fsum rnd d l' v.
(** Products of the entries of two lists. *)
Definition terms (a x : list Q) : list Q := map (fun p => fst p * snd p)%Q (combine a x).
(** ChanceKnapInstance.py:61-68, 88-91: the constraint counts as violated; [v] is the computed dot product, [b] the stored
    right-hand side, the tolerance is the double nearest to 1e-6. *)
Definition violated_fl (rnd : Q -> Q) (v b : Q) : bool := Qlt_bool (rnd tol6) (Qmax (rnd (v - b)%Q) 0).
(** ChanceKnapInstance.py:81-123: flags, number of infeasible scenarios and verdict of the loaded instance [I]; [v s i] is the
    computed dot product of row i of scenario s, the right-hand side eps*N of the verdict is computed in doubles. *)
Definition flags_fl (rnd : Q -> Q) (I : inst) (v : nat -> nat -> Q) : list bool :=
  map (fun s => existsb (fun i => violated_fl rnd (v s i) (rhs I s i)) (seq 0 (i_m I))) (seq 0 (i_k I)).
Definition feasible_fl (rnd : Q -> Q) (I : inst) (v : nat -> nat -> Q) : bool :=
  Qle_bool (Qn (count (fun f => f) (flags_fl rnd I v))) (rnd (rnd (i_eps I) * Qn (i_k I))%Q).

(** UpperBounder.py:52-63 in doubles: cumulated probabilities, threshold [thr]. *)
Fixpoint ahmed_loop_fl (rnd : Q -> Q) (costs proba : list Q) (thr total : Q) (l : list nat) : res (option (nat * Q)) :=
  match l with
  | [] => Ok None
  | s :: l' =>
      do p <- geti proba s ;;
      let total := rnd (total + p)%Q in
      if Qle_bool thr total then do c <- geti costs s ;; Ok (Some (s, c)) else ahmed_loop_fl rnd costs proba thr total l'
  end.
(** LowerBounder.py:82-94 in doubles. *)
Fixpoint select_loop_fl (rnd : Q -> Q) (proba : list Q) (thr total : Q) (done l : list nat) : res (option (list nat)) :=
  match l with
  | [] => Ok None
  | s :: l' =>
      do p <- geti proba s ;;
      let total := rnd (total + p)%Q in
      if Qle_bool thr total then Ok (Some (done ++ [s])) else select_loop_fl rnd proba thr total (done ++ [s]) l'
  end.
(** ChanceKnapInstance.py:40 in doubles: np.full(k, 1/k). *)
Definition uniform_fl (rnd : Q -> Q) (k : nat) : list Q := repeat (rnd (1 / Qn k)%Q) k.
(** UpperBounder.py:42-63, LowerBounder.py:70-94: epsilon and 1e-7 are doubles too. *)
Definition ahmed_bound_fl (rnd : Q -> Q) (argsort : list Q -> list nat) (costs : list Q) (k : nat) (eps : Q) : res (option (nat * Q)) :=
  ahmed_loop_fl rnd costs (uniform_fl rnd k) (rnd (rnd eps + rnd (1 # 10000000)))%Q 0 (argsort costs).
Definition selected_scenarios_fl (rnd : Q -> Q) (argsort : list Q -> list nat) (eps : Q) (k : nat) (index : list Q) : res (option (list nat)) :=
  if length index <? k then Err ValueError
  else select_loop_fl rnd (uniform_fl rnd k) (rnd (rnd (1 - rnd eps) - rnd (1 # 10000000)))%Q 0 [] (argsort index).
