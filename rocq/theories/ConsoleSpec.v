(** What is printed about numbers, independently of Console.v. *)
From Verif Require Import Base Adaptive TextSpec ResultSpec.
From Coq Require Import Ascii String ZArith QArith.
Local Open Scope nat_scope.
Local Open Scope list_scope.

(** [t] shows q with d decimals on at least w characters: a sign for negative numbers only, digits, a point and d digits; zeros are
    added in front of the digits only to reach the width. *)
Definition padded_text (w d : nat) (q : Q) (t : list ascii) : Prop :=
  w <= List.length t /\
  exists sg n ip fp z (neg : bool),
    t = sg ++ repeat "0"%char n ++ ip ++ (match d with 0 => [] | _ => "."%char :: fp end) /\ (n = 0 \/ List.length t = w) /\
    List.length fp = d /\ ip <> [] /\ (forall c l, ip = "0"%char :: c :: l -> False) /\
    (if neg then sg = ["-"%char] else sg = []) /\ (neg = true <-> (q < 0)%Q) /\
    digits_value (ip ++ fp) z /\ nearest_even (q * inject_Z (10 ^ Z.of_nat d)) (signed neg z).
