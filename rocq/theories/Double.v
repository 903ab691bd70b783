(** Round to nearest even in binary64, with subnormal numbers and overflow. *)
From Coq Require Import SpecFloat Qpower Qabs.
From Verif Require Import Base Spec Instance Rounding Floats.

(** Exponent of the last bit: 53 significant bits, multiples of 2^-1074. *)
Definition ulp64 (q : Q) : Z := Z.max (mag q - 52) (-1074).
Definition rnd64 (q : Q) : Q :=
  if Qeq_bool q 0 then 0%Q
  else let s := (2 ^ ulp64 q)%Q in (inject_Z (Qrnd (q / s)) * s)%Q.

(** f is the correctly rounded result for the exact result q: the nearest number, or an infinity if this one is too large. *)
Definition nearest64 (f : spec_float) (q : Q) : Prop :=
  valid_binary 53 1024 f = true /\
  ((Qabs (rnd64 q) < 2 ^ 1024)%Q -> exists v, b64_val f = Some v /\ (v == rnd64 q)%Q) /\
  ((2 ^ 1024 <= Qabs (rnd64 q))%Q -> f = S754_infinity (Qlt_bool q 0)).

(** f is a finite double of value v. *)
Definition dbl (f : spec_float) (v : Q) : Prop := valid_binary 53 1024 f = true /\ b64_val f = Some v.

(** IEEE 754, round to nearest even: f is the double nearest to q, and the one of even significand if two are as near. *)
Definition even_mantissa (f : spec_float) : bool := match f with S754_finite _ m _ => Z.even (Zpos m) | _ => true end.
Definition is_nearest (f : spec_float) (q : Q) : Prop :=
  exists v, b64_val f = Some v /\
    forall g w, valid_binary 53 1024 g = true -> b64_val g = Some w ->
      (Qabs (v - q) <= Qabs (w - q))%Q /\ ((Qabs (v - q) == Qabs (w - q))%Q -> (v == w)%Q \/ even_mantissa f = true).
(** Beyond the largest double plus half a unit, the result is an infinity. *)
Definition correctly_rounded (f : spec_float) (q : Q) : Prop :=
  valid_binary 53 1024 f = true /\
  ((Qabs q < 2 ^ 1024 - 2 ^ 970)%Q -> is_nearest f q) /\
  ((2 ^ 1024 - 2 ^ 970 <= Qabs q)%Q -> f = S754_infinity (Qlt_bool q 0)).

(** float(text): the double nearest to a decimal, whatever its number of digits. *)
Definition b64_read (q : Q) : spec_float :=
  match Qnum q with
  | Z0 => S754_zero false
  | Zpos p => SFdiv 53 1024 (S754_finite false p 0) (S754_finite false (Qden q) 0)
  | Zneg p => SFdiv 53 1024 (S754_finite true p 0) (S754_finite false (Qden q) 0)
  end.

(** ** Expressions of the code on doubles *)

(** Solver.py:35: (vUB - vLB)/vLB *)
Definition gap64 (u l : spec_float) : spec_float := SFdiv 53 1024 (SFsub 53 1024 u l) l.
(** Python's max(x, 0). *)
Definition max64 (x : spec_float) : spec_float := if SFltb x (S754_zero false) then S754_zero false else x.
(** ChanceKnapInstance.py:61-68, 89-91: max(A x - b, 0) > 1e-6, for the computed product v. *)
Definition violated64 (v b : spec_float) : bool := SFltb (b64_read tol6) (max64 (SFsub 53 1024 v b)).
(** AdaptivePartitioner.py:147-148, UpperBounder.py:34-35: v <= vUB + 1e-8. *)
Definition not_above64 (v u : spec_float) : bool := SFleb v (SFadd 53 1024 u (b64_read (1 # 100000000))).
(** UpperBounder.py:110-112: cost <= vLB - 1e-3. *)
Definition pruned64 (c l : spec_float) : bool := SFleb c (SFsub 53 1024 l (b64_read (1 # 1000))).
(** TimeManager.py:36-39 *)
Definition remaining64 (limit now start : spec_float) : spec_float := max64 (SFsub 53 1024 limit (SFsub 53 1024 now start)).
(** ChanceKnapInstance.py:119-121: nb_infeasible_scenarios <= epsilon*nb_scenarios. *)
Definition feasible64 (nb : Z) (eps : Q) (n : Z) : bool := SFleb (b64_of_Z nb) (b64_mul (b64_of_Q eps) (b64_of_Z n)).
