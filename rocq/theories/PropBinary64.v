(** Doubles (C76), with the products epsilon*N and epsilon*100 (C50, C54). *)
From Coq Require Import SpecFloat Qpower Qabs.
From Verif Require Import Base Spec Instance Bounds Rounding Floats Double DoubleFacts DoubleOps DoubleNear DoubleFloor DoubleUse.
From Verif Require Import OptModels Initial Refine CostRefine Merge Violations BigM Adaptive BoundsFl.

(** ** C76 *)
(** The operations are correctly rounded, subnormal numbers and overflow included. *)
Theorem C76_operations : forall x y a b, dbl x a -> dbl y b ->
  correctly_rounded (SFadd 53 1024 x y) (a + b) /\ correctly_rounded (SFsub 53 1024 x y) (a - b) /\
  correctly_rounded (SFmul 53 1024 x y) (a * b) /\ (~ (b == 0)%Q -> correctly_rounded (SFdiv 53 1024 x y) (a / b)).
Proof. exact operations. Qed.
Print Assumptions C76_operations.
Theorem C76_integers : forall z, correctly_rounded (b64_of_Z z) (inject_Z z).
Proof. exact of_Z_correct. Qed.
Print Assumptions C76_integers.
Theorem C76_decimals : forall q, correctly_rounded (b64_read q) q.
Proof. exact read_correct. Qed.
Print Assumptions C76_decimals.
Theorem C76_comparisons : forall x y a b, dbl x a -> dbl y b ->
  SFcompare x y = Some (a ?= b)%Q /\ SFleb x y = Qle_bool a b /\ SFltb x y = Qlt_bool a b.
Proof. exact comparisons. Qed.
Print Assumptions C76_comparisons.

(** The rounding without bounds on the exponent, used in the other files, gives the same numbers: always for sums and
    differences that do not overflow, and for products and quotients in the normal range. *)
Theorem C76_rounding : forall x y a b, dbl x a -> dbl y b ->
  ((Qabs (a + b) <= 2 ^ 1023)%Q -> exists v, dbl (SFadd 53 1024 x y) v /\ (v == rnd53 (a + b))%Q) /\
  ((Qabs (a - b) <= 2 ^ 1023)%Q -> exists v, dbl (SFsub 53 1024 x y) v /\ (v == rnd53 (a - b))%Q) /\
  ((2 ^ (-1022) <= Qabs (a * b) <= 2 ^ 1023)%Q -> exists v, dbl (SFmul 53 1024 x y) v /\ (v == rnd53 (a * b))%Q) /\
  (~ (b == 0)%Q -> (2 ^ (-1022) <= Qabs (a / b) <= 2 ^ 1023)%Q -> exists v, dbl (SFdiv 53 1024 x y) v /\ (v == rnd53 (a / b))%Q).
Proof. exact rounded_same. Qed.
Print Assumptions C76_rounding.
Theorem C76_constants : forall q, (q == 0)%Q \/ (2 ^ (-1022) <= Qabs q <= 2 ^ 1023)%Q -> exists v, dbl (b64_read q) v /\ (v == rnd53 q)%Q.
Proof. exact read_same. Qed.
Print Assumptions C76_constants.

(** Tests and expressions of the code on doubles are those of the model. *)
Theorem C76_violated : forall v b x y, dbl x v -> dbl y b -> (Qabs v <= 2 ^ 1022)%Q -> (Qabs b <= 2 ^ 1022)%Q -> violated64 x y = violated_fl rnd53 v b.
Proof. exact violated_same. Qed.
Print Assumptions C76_violated.
Theorem C76_not_above : forall v u x y, dbl x v -> dbl y u -> (Qabs u <= 2 ^ 1022)%Q -> not_above64 x y = not_above_fl rnd53 v (Fin u).
Proof. exact not_above_same. Qed.
Print Assumptions C76_not_above.
Theorem C76_pruned : forall c l x y, dbl x c -> dbl y l -> (Qabs l <= 2 ^ 1022)%Q ->
  pruned64 x y = ext_leb (Fin c) (fl_add rnd53 (Fin l) (- rnd53 (1 # 1000))%Q).
Proof. exact pruned_same. Qed.
Print Assumptions C76_pruned.
Theorem C76_remaining : forall limit now start x y z, dbl x limit -> dbl y now -> dbl z start ->
  (Qabs limit <= 2 ^ 1022)%Q -> (Qabs now <= 2 ^ 1020)%Q -> (Qabs start <= 2 ^ 1020)%Q ->
  exists r, dbl (remaining64 x y z) r /\ (r == remaining_fl rnd53 limit now start)%Q.
Proof. exact remaining_same. Qed.
Print Assumptions C76_remaining.
Theorem C76_gap : forall x y a b, dbl x a -> dbl y b -> (2 ^ (-400) <= b <= 2 ^ 400)%Q -> (Qabs a <= 2 ^ 400)%Q ->
  exists g, dbl (gap64 x y) g /\ forall npU npL, exists q, gap_fl rnd53 (Fin a) npU (Fin b) npL = Ok (Some (Fin q)) /\ (g == q)%Q.
Proof. exact gap_same. Qed.
Print Assumptions C76_gap.
(** The verdict of is_feasible compares with the floor of the computed product. *)
Theorem C76_feasible : forall nb eps n, (Z.abs nb < 2 ^ 53)%Z -> (0 < eps)%Q -> (Qnum eps < 2 ^ 53)%Z -> (Zpos (Qden eps) < 2 ^ 53)%Z -> (0 < n < 2 ^ 53)%Z ->
  feasible64 nb eps n = Qle_bool (inject_Z nb) (rnd53 (rnd53 eps * inject_Z n)) /\
  exists k, b64_floor eps n = Some k /\ feasible64 nb eps n = (nb <=? k)%Z.
Proof. exact feasible_same. Qed.
Print Assumptions C76_feasible.

(** 0.1 + 0.2; the smallest double halved is 0; the largest one doubled is infinite; 29 violated scenarios of 100 are too many for 0.29. *)
Example C76_example :
  b64_val (SFadd 53 1024 (b64_read (1 # 10)) (b64_read (2 # 10))) <> b64_val (b64_read (3 # 10)) /\
  SFltb (b64_read (3 # 10)) (SFadd 53 1024 (b64_read (1 # 10)) (b64_read (2 # 10))) = true /\
  dbl (S754_finite false 1 (-1074)) (1 # 2 ^ 1074) /\ SFmul 53 1024 (S754_finite false 1 (-1074)) (b64_read (1 # 2)) = S754_zero false /\
  SFmul 53 1024 (S754_finite false 9007199254740991 971) (b64_of_Z 2) = S754_infinity false /\
  b64_of_Z 9007199254740993 = b64_of_Z 9007199254740992 /\
  gap64 (b64_of_Z 3) (b64_of_Z 2) = b64_read (1 # 2) /\ feasible64 29 (29 # 100) 100 = false /\ feasible64 28 (29 # 100) 100 = true /\ feasible64 20 (1 # 5) 100 = true.
Proof. vm_compute. repeat split; discriminate. Qed.

(** ** C54 *)
(** For every decimal epsilon and number of scenarios: the computed floor is exact, or one less; the latter only if epsilon*N is
    an integer and the double epsilon is below the decimal. *)
Theorem C54_floor : forall eps n, (0 < eps)%Q -> (Zpos (Qden eps) < 2 ^ 53)%Z -> (0 < n)%Z -> (Qnum eps * n < 2 ^ 51)%Z ->
  b64_floor eps n = Some (Qfloor (eps * inject_Z n)) \/
  (b64_floor eps n = Some (Qfloor (eps * inject_Z n) - 1)%Z /\ (eps * inject_Z n == inject_Z (Qfloor (eps * inject_Z n)))%Q /\ (rnd53 eps < eps)%Q).
Proof. exact floor_cases. Qed.
Print Assumptions C54_floor.
(** Exact for every number of scenarios below 2^50 with the usual values of epsilon. *)
Theorem C54_usual : Forall (fun eps => forall n, (0 < n < 2 ^ 50)%Z -> b64_floor eps n = Some (Qfloor (eps * inject_Z n)))
  [1 # 100; 1 # 50; 1 # 20; 1 # 10; 1 # 5; 1 # 4; 1 # 2]%Q.
Proof. exact usual_floor. Qed.
Print Assumptions C54_usual.
Example C54_cases_example : b64_floor (3 # 10) 10 = Some 3%Z /\ Qlt_bool (rnd53 (3 # 10)) (3 # 10) = true /\ b64_floor (29 # 100) 100 = Some 28%Z /\
  Qlt_bool (rnd53 (1 # 10)) (1 # 10) = false.
Proof. vm_compute. auto. Qed.

(** ** C50 *)
(** For a percentage a, main.py always writes a; export_results.py reads a, or a - 1 if the double is below a/100. *)
Theorem C50_percent : forall a, (0 < a < 2 ^ 40)%Z -> exists p, b64_prod (a # 100) 100 = Some p /\ (0 <= p)%Q /\ Qrnd p = a /\
  (Qtrunc p = a \/ Qtrunc p = (a - 1)%Z /\ (rnd53 (a # 100) < a # 100)%Q).
Proof. exact percent_names. Qed.
Print Assumptions C50_percent.
