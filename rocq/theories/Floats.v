(** Binary64 arithmetic (Coq.Floats.SpecFloat) for the products epsilon*N and epsilon*100:
    AdaptivePartitioner.py:86-87, Refiner.py (_find_number_of_splits_to_perform), BigMFinder.py (_quantile_big_m),
    ChanceKnapInstance.py:111 (is_feasible), main.py:50, format_results.py:21. *)
From Coq Require Import SpecFloat.
From Verif Require Import Base Spec Instance.

Definition b64_mul : spec_float -> spec_float -> spec_float := SFmul 53 1024.
(** An integer of absolute value below 2^53, as a binary64. *)
Definition b64_of_Z (z : Z) : spec_float := binary_normalize 53 1024 z 0 false.
(** float("n/d"): the correctly rounded quotient of two integers that are binary64 numbers. *)
Definition b64_of_Q (q : Q) : spec_float := SFdiv 53 1024 (b64_of_Z (Qnum q)) (b64_of_Z (Zpos (Qden q))).
(** The exact value of a finite binary64. *)
Definition b64_val (f : spec_float) : option Q :=
  match f with
  | S754_zero _ => Some 0%Q
  | S754_finite s m e =>
      let z := if s then Zneg m else Zpos m in
      Some (if (0 <=? e)%Z then inject_Z (z * 2 ^ e) else (inject_Z z / inject_Z (2 ^ (- e)))%Q)
  | _ => None
  end.
(** epsilon*N for a decimal epsilon and an integer N. *)
Definition b64_prod (eps : Q) (n : Z) : option Q := b64_val (b64_mul (b64_of_Q eps) (b64_of_Z n)).
(** math.floor(epsilon*N) *)
Definition b64_floor (eps : Q) (n : Z) : option Z := option_map Qfloor (b64_prod eps n).
