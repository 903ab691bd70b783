(** The generator of the instances: data/cc-instances/knapsack/instance-generator.py and generate-all-instances.sh.
    Simplifications: numbers in data/orlib are decimals without sign and exponent, other spellings are ValueError; the quote character
    '|' and \r, which do not occur there, have no special meaning; the arithmetic on the random numbers is exact (they are arbitrary). *)
From Coq Require Import Ascii String QArith Qabs.
From Verif Require Import Base Spec Instance OptModels Bounds Refine CostRefine Merge Violations BigM Adaptive Milp Report Main Export.
From Verif Require Import Text.
From Verif Require Import Campaign.
Local Open Scope nat_scope.
Local Open Scope list_scope.

(** ** Reading (instance-generator.py:17-28) *)

(** Pieces between the occurrences of a character. *)
Fixpoint split_on (c : ascii) (t : list ascii) : list (list ascii) :=
  match t with
  | [] => [[]]
  | a :: t' => if Ascii.eqb a c then [] :: split_on c t'
               else match split_on c t' with f :: fs => (a :: f) :: fs | [] => [[a]] end
  end.
(** Lines of a file: nothing follows the last end of line. *)
Definition file_lines (t : list ascii) : list (list ascii) :=
  match rev (split_on LF t) with [] :: r => rev r | _ => split_on LF t end.
(** instance-generator.py:18-20: the fields of each line; an empty line has none. *)
Definition space_char : ascii := " "%char.
Definition orlib_rows (t : list ascii) : list (list (list ascii)) :=
  map (fun l => match l with [] => [] | _ => split_on space_char l end) (file_lines t).

(** float() and int() on digits, with a point for float(). *)
Definition read_dec (f : list ascii) : res dec :=
  let '(ip, r) := take_digits f in
  match ip, r with
  | [], _ => Err ValueError
  | _, [] => Ok (dec_val ip, 0)
  | _, p :: fp =>
      if Ascii.eqb p dot_char && forallb is_digit fp then Ok (dec_val (ip ++ fp), List.length fp) else Err ValueError
  end.
Definition read_int (f : list ascii) : res nat :=
  match take_digits f with
  | ((_ :: _) as ip, []) => Ok (Z.to_nat (dec_val ip))
  | _ => Err ValueError
  end.

(** instance-generator.py:23-28: qtyItems, qtyConstraints, objParam, matrixA, vectorB *)
Record orlib := mkOrlib { or_n : nat; or_m : nat; or_c : list dec; or_A : list (list dec); or_b : list dec }.
(** np.array of a list of lists: all of the same length. *)
Definition same_length {A} (M : list (list A)) : bool :=
  match M with [] => true | r :: M' => forallb (fun r' => List.length r' =? List.length r) M' end.
(** instance-generator.py:17-28.  A matrix with less than qtyItems columns raises an IndexError at line 51, before any file is written. *)
Definition read_orlib (t : list ascii) : res orlib :=
  match orlib_rows t with
  | r0 :: r1 :: rest =>
      do info <- rmap read_int (firstn 2 r0) ;;
      match info with
      | [n; m] =>
          do c <- rmap read_dec r1 ;;
          do A <- rmap (rmap read_dec) (firstn m rest) ;;
          if negb (same_length A) then Err ValueError
          else match nth_error rest m with
               | None => Err IndexError
               | Some r => do b <- rmap read_dec r ;;
                           if forallb (fun r => n <=? List.length r) A then Ok (mkOrlib n m c A b) else Err IndexError
               end
      | _ => Err IndexError
      end
  | _ => Err IndexError
  end.

(** ** Samples (instance-generator.py:33-58) *)

(** The random numbers of one instance: the standard normal number of scenario s, constraint i and item j; whether item j fails in
    scenario s. *)
Record draws := mkDraws { dr_normal : nat -> nat -> nat -> Q; dr_fails : nat -> nat -> bool }.
(** instance-generator.py:50-52: a normal number of mean a_ij and standard deviation |a_ij|*0.1, times 0 or 1. *)
Definition mean (o : orlib) (i j : nat) : Q := dval (nth j (nth i (or_A o) []) (0%Z, 0)).
Definition sample (o : orlib) (d : draws) (s i j : nat) : Q :=
  ((mean o i j + Qabs (mean o i j) * (1 # 10) * dr_normal d s i j) * (if dr_fails d s j then 0 else 1))%Q.
(** instance-generator.py:46-58 *)
Definition samples (o : orlib) (d : draws) (k : nat) : list (list (list Q)) :=
  map (fun s => map (fun i => map (fun j => sample o d s i j) (seq 0 (or_n o))) (seq 0 (or_m o))) (seq 0 k).

(** ** Files *)
(** instance-generator.py:59-72 *)
Definition orlib_text (o : orlib) (d : draws) (k : nat) : list ascii :=
  gen_text (or_n o) (or_m o) (or_c o) (samples o d k) (or_b o).
(** instance-generator.py: the files written by one call, for [k] scenarios; [d j] are the random numbers of instance j. *)
Definition generate (t : list ascii) (k : Z) (copies : nat) (d : nat -> draws) : res (list (string * list ascii)) :=
  do o <- read_orlib t ;;
  Ok (map (fun j => (instance_file (Z.of_nat (or_n o)) (Z.of_nat (or_m o)) k j, orlib_text o (d j) (Z.to_nat k))) (seq 1 copies)).
(** generate-all-instances.sh:8-14; an exception ends its own call only.  [d f k j]: the random numbers for file number f. *)
Definition generate_all (texts : list (list ascii)) (scenarios : list Z) (copies : nat) (d : nat -> Z -> nat -> draws)
  : list (string * list ascii) :=
  flat_map (fun ft : nat * list ascii =>
    flat_map (fun k => match generate (snd ft) k copies (d (fst ft) k) with Ok l => l | Err _ => [] end) scenarios)
    (combine (seq 0 (List.length texts)) texts).
